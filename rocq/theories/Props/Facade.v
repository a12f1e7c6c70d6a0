(** C74: which calls a sorter made with sorter_facade accepts, and what they pass to the sorter implementation. *)
From Coq Require Import List Bool Arith.
From Verif Require Import Spec.Order Model.Facade Spec.Facade Proofs.Facade Proofs.FacadeCalls.
Import ListNotations.

(** For every sorter implementation: whatever overload of the facade a call reaches, the implementation accepts what it is given, gets iterators if the
    call had iterators, and is asked for the order that the call asks for, whatever the comparisons and the projection compute. *)
Theorem C74_sorter_facade_order :
  forall (inv : form -> list fn -> bool) (cpp20 : bool) (w w' : form) (args args' : list fn),
    valid_call cpp20 args = true -> call inv cpp20 w args = Calls w' args' ->
    inv w' args' = true /\ (w = Iterators -> w' = Iterators) /\
    forall (A T : Type) (less_a cmp_a : A -> A -> bool) (less_t cmp_t : T -> T -> bool) (prj : A -> T),
      exists order, order_of less_a cmp_a less_t cmp_t prj args = Some order /\ order_of less_a cmp_a less_t cmp_t prj args' = Some order.
Proof.
  intros inv cpp20 w w' args args' V E. pose proof (call_sound inv cpp20 w args V) as S. rewrite E in S. destruct S as (_ & HI & HW & HR & _).
  split; auto. split; auto. intros. apply reachable_alternatives in HR.
  destruct (alternatives_order _ _ less_a cmp_a less_t cmp_t prj cpp20 _ _ V HR) as [H1 H2].
  destruct (order_of less_a cmp_a less_t cmp_t prj args) as [o|]; [|contradiction]. eauto.
Qed.
Print Assumptions C74_sorter_facade_order.

(** A call with iterators is never ambiguous; it is accepted if and only if the implementation accepts one of the calls that can stand for it. *)
Theorem C74_iterators_callable_iff :
  forall (inv : form -> list fn -> bool) (cpp20 : bool) (args : list fn),
    valid_call cpp20 args = true -> args <> [RangesLess; Identity] ->
    call inv cpp20 Iterators args <> AmbiguousCall /\
    ((exists w' args', call inv cpp20 Iterators args = Calls w' args') <-> exists a, In a (alternatives args) /\ inv Iterators a = true).
Proof.
  intros inv cpp20 args V HN. destruct (call_outcome inv cpp20 Iterators args V) as [H1 H2].
  assert (call inv cpp20 Iterators args <> AmbiguousCall) as NA. { intros E. apply H1 in E. discriminate. }
  split; auto. rewrite <- (reachable_eq args HN). split.
  - intros (w' & a' & E). destruct (served inv Iterators args) eqn:ES.
    + apply served_iff in ES as (a & w'' & Ha & EI & Hw). rewrite (Hw eq_refl) in EI. eauto.
    + apply proj2 in H2. specialize (H2 eq_refl). congruence.
  - intros (a & Ha & EI). destruct (call inv cpp20 Iterators args) as [| |w' a'] eqn:E; eauto; [|contradiction].
    assert (served inv Iterators args = true) by (apply served_iff; exists a, Iterators; auto). apply proj1 in H2. rewrite (H2 eq_refl) in *. discriminate.
Qed.
Print Assumptions C74_iterators_callable_iff.

(** Without the exception it is false: std::ranges::less with utility::identity is refused where std::less<> with utility::identity, std::less<> with
    std::identity, and std::ranges::less with std::identity are accepted. *)
Theorem C74_ranges_less_identity_refuted :
  exists inv : form -> list fn -> bool,
    (forall w, call inv true w [] = Calls Iterators []) /\
    (forall w, call inv true w [Less; Identity] = Calls Iterators []) /\
    (forall w, call inv true w [Less; StdIdentity] = Calls Iterators []) /\
    (forall w, call inv true w [RangesLess; StdIdentity] = Calls Iterators []) /\
    (forall w, call inv true w [RangesLess; Identity] = NotCallable).
Proof.
  exists (fun w a => match w, a with Iterators, [] => true | _, _ => false end). repeat split; intros []; vm_compute; reflexivity.
Qed.
Print Assumptions C74_ranges_less_identity_refuted.

(** A call with an iterable, to an implementation that accepts a pair of iterators wherever it accepts an iterable: it is never ambiguous, it is accepted
    if and only if the call with iterators is, and it reaches the overload on iterables that accepts exactly its arguments, if there is one. *)
Theorem C74_iterable_callable_iff :
  forall (inv : form -> list fn -> bool) (cpp20 : bool) (args : list fn),
    (forall a, inv Iterable a = true -> inv Iterators a = true) -> valid_call cpp20 args = true ->
    call inv cpp20 Iterable args <> AmbiguousCall /\
    (call inv cpp20 Iterable args = NotCallable <-> call inv cpp20 Iterators args = NotCallable) /\
    (inv Iterable args = true -> call inv cpp20 Iterable args = Calls Iterable args).
Proof.
  intros inv cpp20 args HI V. destruct (call_outcome inv cpp20 Iterable args V) as [H1 H2]. destruct (call_outcome inv cpp20 Iterators args V) as [_ H4].
  assert (ambiguous inv Iterable args = false) as NA.
  { destruct (ambiguous inv Iterable args) eqn:E; auto. apply ambiguous_only in E as (a & E1 & E2). rewrite (HI a E1) in E2. discriminate. }
  assert (served inv Iterable args = served inv Iterators args) as ES.
  { apply eq_true_iff_eq. rewrite !served_iff. split; intros (a & w' & Ha & E & Hw).
    - exists a, Iterators. repeat split; auto. destruct w'; auto.
    - exists a, w'. repeat split; auto; discriminate. }
  split; [|split].
  - intros E. apply H1 in E. congruence.
  - rewrite H2, H4, ES. tauto.
  - intros EI. pose proof (call_sound inv cpp20 Iterable args V) as S. destruct (call inv cpp20 Iterable args) as [| |w' a'] eqn:E.
    + assert (served inv Iterable args = true); [|cbn [sound] in S; congruence]. apply served_iff. exists args, Iterable. repeat split; auto; try discriminate. apply reachable_self.
    + cbn [sound] in S. congruence.
    + destruct S as (_ & _ & _ & _ & S). apply S; auto.
Qed.
Print Assumptions C74_iterable_callable_iff.

(** Without the condition: exactly which calls with an iterable are ambiguous. *)
Theorem C74_iterable_ambiguous_iff :
  forall (inv : form -> list fn -> bool) (cpp20 : bool) (args : list fn), valid_call cpp20 args = true ->
    (call inv cpp20 Iterable args = AmbiguousCall <->
     (exists p, args = [p] /\ is_projection p = true /\ (inv Iterable [p] = true \/ inv Iterable [Less; p] = true) /\
        inv Iterators [p] = false /\ inv Iterators [Less; p] = false /\ (inv Iterable [Fused Less p] = true \/ inv Iterators [Fused Less p] = true) /\
        (identity_like p = true -> inv Iterable [] = false /\ inv Iterators [] = false)) \/
     (exists c p, args = [c; p] /\ less_like c = false /\ inv Iterable [c; p] = true /\ inv Iterators [c; p] = false /\
        (inv Iterable [Fused c p] = true \/ inv Iterators [Fused c p] = true))).
Proof.
  intros inv cpp20 args V. destruct (call_outcome inv cpp20 Iterable args V) as [H1 _]. rewrite H1. clear H1 V. destruct args as [|f [|g [|]]]; cbn [ambiguous].
  - split; [discriminate|]. intros [(p & E & _) | (c & p & E & _)]; discriminate.
  - rewrite !andb_true_iff, !orb_true_iff, !negb_true_iff, andb_false_iff, orb_false_iff. split.
    + intros (((((H1 & H2) & H3) & H4) & H5) & H6). left. exists f. repeat split; auto; intros; destruct H2 as [H2|H2]; try congruence; tauto.
    + intros [(p & E & H1 & H2 & H3 & H4 & H5 & H6) | (c & p & E & _)]; [|discriminate]. injection E as ->. destruct (identity_like p); tauto.
  - rewrite !andb_true_iff, !orb_true_iff, !negb_true_iff. split.
    + intros (((H1 & H2) & H3) & H4). right. exists f, g. auto 8.
    + intros [(p & E & _) | (c & p & E & H)]; [discriminate|]. injection E as -> ->. tauto.
  - split; [discriminate|]. intros [(p & E & _) | (c & p & E & _)]; discriminate.
Qed.
Print Assumptions C74_iterable_ambiguous_iff.

(** An implementation that accepts every call with an iterable, and none with iterators, gives a sorter that refuses the calls with an iterable and a
    projection, and with an iterable, a comparison and a projection. *)
Theorem C74_iterable_only_refuted :
  exists inv : form -> list fn -> bool,
    (forall a, inv Iterable a = true) /\
    forall cpp20, call inv cpp20 Iterable [] = Calls Iterable [] /\ call inv cpp20 Iterable [Cmp] = Calls Iterable [Cmp] /\
                  call inv cpp20 Iterable [Prj] = AmbiguousCall /\ call inv cpp20 Iterable [Cmp; Prj] = AmbiguousCall.
Proof.
  exists (fun w _ => match w with Iterable => true | Iterators => false end). split; auto. intros []; repeat split; vm_compute; reflexivity.
Qed.
Print Assumptions C74_iterable_only_refuted.

(** docs/Sorter-facade.md: "It will always call the most suitable iterable operator() overload in the wrapped sorter implementation if there is one."
    Here the overload that takes the iterable and the comparison is passed over. *)
Theorem C74_prefers_iterable_refuted :
  exists inv : form -> list fn -> bool,
    inv Iterable [Less] = true /\
    forall cpp20, call inv cpp20 Iterators [Less] = Calls Iterators [] /\ call inv cpp20 Iterable [Less] = Calls Iterators [].
Proof.
  exists (fun w a => match w, a with Iterators, [] | Iterable, [Less] => true | _, _ => false end). split; auto.
  intros []; split; vm_compute; reflexivity.
Qed.
Print Assumptions C74_prefers_iterable_refuted.

(** An implementation with a single operator() that takes two iterators, a comparison and a projection, both with default arguments, accepts every call
    and gets the arguments of the call, completed with std::less<> if there is a projection only. *)
Theorem C74_single_overload :
  forall (cpp20 : bool) (w : form) (args : list fn), valid_call cpp20 args = true ->
    exists args', call (single_overload true) cpp20 w args = Calls Iterators args' /\
                  (args' = args \/ exists p, is_projection p = true /\ args = [p] /\ args' = [Less; p]).
Proof.
  intros cpp20 w args V.
  destruct (valid_cases _ _ V) as [-> | [(f & -> & Hf & Uf) | (c & p & -> & Hc & Hp & Uc & Up)]]; clear V.
  - destruct cpp20, w; vm_compute; eauto.
  - cbn [In] in Hf. repeat (destruct Hf as [<- | Hf]); try contradiction; destruct cpp20; try discriminate Uf; destruct w; vm_compute; eexists; (split; [reflexivity|]);
      first [ left; reflexivity | right; eexists; split; [|split; reflexivity]; reflexivity ].
  - cbn [In] in Hc, Hp. repeat (destruct Hc as [<- | Hc]); try contradiction; repeat (destruct Hp as [<- | Hp]); try contradiction;
      destruct cpp20; try discriminate Uc; try discriminate Up; destruct w; vm_compute; eexists; (split; [reflexivity|]); eauto.
Qed.
Print Assumptions C74_single_overload.

(** docs/Sorter-facade.md says that it is enough that the implementation takes a pair of iterators, a comparison and a projection.  Without the default
    arguments, the sorter cannot be called without a projection. *)
Theorem C74_without_defaults_refuted :
  forall (cpp20 : bool) (w : form),
    call (single_overload false) cpp20 w [] = NotCallable /\ call (single_overload false) cpp20 w [Less] = NotCallable /\
    call (single_overload false) cpp20 w [Cmp] = NotCallable /\ call (single_overload false) cpp20 w [Prj] = Calls Iterators [Less; Prj].
Proof. intros [] []; repeat split; vm_compute; reflexivity. Qed.
Print Assumptions C74_without_defaults_refuted.

(** An implementation that compares, without projections, on iterators and on iterables (heap_sorter is one on iterators): every call is served. *)
Example C74_case : let inv := fun (_ : form) (a : list fn) => match a with [] => true | [c] => is_comparison c | _ => false end in
  (forall a, inv Iterable a = true -> inv Iterators a = true) /\
  map (call inv true Iterable) [[]; [Cmp]; [Less]; [Identity]; [Prj]; [Less; Prj]; [Cmp; Prj]; [Less; Identity]] =
    [Calls Iterable []; Calls Iterable [Cmp]; Calls Iterable [Less]; Calls Iterable []; Calls Iterable [Fused Less Prj];
     Calls Iterable [Fused Less Prj]; Calls Iterable [Fused Cmp Prj]; Calls Iterable []] /\
  map (valid_call true) [[]; [Cmp]; [Less]; [Identity]; [Prj]; [Less; Prj]; [Cmp; Prj]; [Less; Identity]] = repeat true 8.
Proof. split; [auto|]. split; vm_compute; reflexivity. Qed.
