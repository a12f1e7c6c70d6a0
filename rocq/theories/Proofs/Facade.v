(** sorter_facade: all the calls, for all the sorter implementations. *)
From Coq Require Import List Bool Arith.
From Verif Require Import Spec.Order Model.Facade Spec.Facade.
Import ListNotations.

Lemma filter_flat : forall X (f : X -> bool) l, filter f l = flat_map (fun x => if f x then [x] else []) l.
Proof. induction l as [|x l IH]; simpl; auto. rewrite IH. destruct (f x); reflexivity. Qed.

Section Calls.
Variables (inv : form -> list fn -> bool).

(** One of the projection overloads on iterables is viable, and so is one that embeds the projection in the comparison. *)
Definition ambiguous (w : form) (args : list fn) : bool :=
  match w, args with
  | Iterable, [p] => is_projection p && negb (identity_like p && (inv Iterable [] || inv Iterators [])) && (inv Iterable [p] || inv Iterable [Less; p]) && negb (inv Iterators [p]) && negb (inv Iterators [Less; p]) &&
                     (inv Iterable [Fused Less p] || inv Iterators [Fused Less p])
  | Iterable, [c; p] => negb (less_like c) && inv Iterable [c; p] && negb (inv Iterators [c; p]) && (inv Iterable [Fused c p] || inv Iterators [Fused c p])
  | _, _ => false
  end.
(** The calls for which an overload is missing. *)
Definition missing (args : list fn) : bool := match args with [RangesLess; Identity] => true | _ => false end.
Definition reachable (args : list fn) : list (list fn) := if missing args then filter (fun a => negb (length a =? 0)) (alternatives args) else alternatives args.
Definition served (w : form) (args : list fn) : bool :=
  existsb (inv Iterators) (reachable args) || match w with Iterable => existsb (inv Iterable) (reachable args) | Iterators => false end.

Definition sound (w : form) (args : list fn) (o : outcome) : Prop :=
  match o with
  | AmbiguousCall => ambiguous w args = true
  | NotCallable => served w args = false
  | Calls w' args' => ambiguous w args = false /\ inv w' args' = true /\ (w = Iterators -> w' = Iterators) /\ In args' (reachable args) /\
      (inv Iterable args = true -> w = Iterable -> inv Iterators args = true -> Calls w' args' = Calls Iterable args)
  end.
End Calls.

Lemma valid_cases : forall cpp20 args, valid_call cpp20 args = true ->
  args = [] \/ (exists f, args = [f] /\ In f [Less; RangesLess; Cmp; Identity; StdIdentity; Prj] /\ from_user cpp20 f = true) \/
  exists c p, args = [c; p] /\ In c [Less; RangesLess; Cmp] /\ In p [Identity; StdIdentity; Prj] /\ from_user cpp20 c = true /\ from_user cpp20 p = true.
Proof.
  intros cpp20 args H. unfold valid_call in H. apply andb_true_iff in H as [HF H]. destruct args as [|f [|g [|]]]; try discriminate; auto.
  - right. left. exists f. simpl in HF. rewrite andb_true_r in HF. split; auto. split; auto. destruct f; simpl; auto 8; discriminate.
  - right. right. exists f, g. simpl in HF. rewrite andb_true_r in HF. apply andb_true_iff in HF as [H1 H2]. apply andb_true_iff in H as [H3 H4]. split; auto.
    split. { destruct f; simpl; auto; discriminate. } split; auto. destruct g; simpl; auto; discriminate.
Qed.

Lemma filter_and : forall X (a b : X -> bool) l, filter (fun x => a x && b x) l = filter b (filter a l).
Proof. induction l as [|x l IH]; simpl; auto. destruct (a x); simpl; rewrite IH; auto. Qed.

(** The overloads that the arguments match, then those that are enabled. *)
Definition matching (inv : form -> list fn -> bool) (cpp20 : bool) (w : form) (args : list fn) : list overload :=
  filter (fun o => form_eqb (on o) w && matches (params o) args) (overloads inv cpp20).
Lemma candidates_flat : forall inv cpp20 wf w args,
  candidates inv cpp20 wf w args = flat_map (fun o => if enabled o args && wf (body o args) then [(params o, body o args)] else []) (matching inv cpp20 w args).
Proof.
  intros inv cpp20 wf w args. unfold candidates. rewrite filter_and. fold (matching inv cpp20 w args). induction (matching inv cpp20 w args) as [|o l IH]; auto.
  cbn [filter flat_map]. destruct (enabled o args && wf (body o args)); cbn [map app]; now rewrite IH.
Qed.

Ltac matching_norm :=
  cbn [matching overloads app non_comparison_overloads comparison_overloads projection_overloads less_overloads identity_overloads fused_overloads
       less_identity_overloads less_projection_overloads embedding_overloads filter on form_eqb matches params fn_eqb andb].
Ltac enabled_norm := cbn [flat_map app enabled body params arg1 arg2 nth].

Lemma resolve_iterable_eq : forall inv cpp20, resolve_iterable inv cpp20 =
  if inv Iterable [] then Chosen (ToSorter Iterable []) else if inv Iterators [] then Chosen (ToSorter Iterators []) else NotViable.
Proof.
  intros inv cpp20. unfold resolve_iterable. rewrite candidates_flat. unfold matching. destruct cpp20; matching_norm; enabled_norm; unfold has_sort, calls_sorter;
    destruct (inv Iterable []), (inv Iterators []); reflexivity.
Qed.
Definition wf_iterable (inv : form -> list fn -> bool) : bool := inv Iterable [] || inv Iterators [].
Lemma well_formed_eq : forall inv cpp20 t, well_formed inv cpp20 t = match t with ToSorter w args => inv w args | ToFacade _ => wf_iterable inv end.
Proof. intros inv cpp20 [w args|args]; simpl; auto. rewrite resolve_iterable_eq. unfold wf_iterable. destruct (inv Iterable []), (inv Iterators []); reflexivity. Qed.

Ltac bit inv :=
  match goal with
  | H : inv ?w ?a = _ |- context [inv ?w ?a] => rewrite H
  | |- context [inv ?w ?a] => let E := fresh "E" in destruct (inv w a) eqn:E
  end.
Ltac leaf :=
  first [ reflexivity
        | split; [ reflexivity | split; [ first [ reflexivity | assumption ] | split; [ intro; first [ reflexivity | discriminate ] |
          split; [ cbn; repeat first [ left; reflexivity | right ] | intros; first [ reflexivity | discriminate ] ] ] ] ] ].

Ltac decide_call inv :=
  unfold matching; matching_norm; enabled_norm; unfold has_sort, has_comparison_sort, has_projection_sort, has_comparison_projection_sort;
  rewrite ?well_formed_eq; unfold wf_iterable, sound, ambiguous, served, reachable; cbn; rewrite ?andb_false_r, ?andb_true_r; cbn;
  repeat (bit inv; cbn); leaf.

(** For every implementation and every valid call, the outcome of the overload resolution is the one that [sound] describes. *)
Theorem call_sound : forall inv cpp20 w args, valid_call cpp20 args = true -> sound inv w args (call inv cpp20 w args).
Proof.
  intros inv cpp20 w args V. unfold call. rewrite resolve_iterable_eq, candidates_flat.
  destruct (valid_cases _ _ V) as [-> | [(f & -> & Hf & Uf) | (c & p & -> & Hc & Hp & Uc & Up)]]; clear V.
  - destruct cpp20, w; decide_call inv.
  - cbn [In] in Hf. repeat (destruct Hf as [<- | Hf]); try contradiction; destruct cpp20; try discriminate Uf; clear Uf; destruct w; decide_call inv.
  - cbn [In] in Hc, Hp. repeat (destruct Hc as [<- | Hc]); try contradiction; repeat (destruct Hp as [<- | Hp]); try contradiction;
      destruct cpp20; try discriminate Uc; try discriminate Up; clear Uc Up; destruct w; decide_call inv.
Qed.
