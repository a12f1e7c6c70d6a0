(** C95: the adapters of function objects. *)
From Coq Require Import List Bool Arith.
From Verif Require Import Model.FunctionObjects.
Import ListNotations.

Ltac parts := repeat match goal with
  | |- context [snd (operators ?t ?b true ?f)] => destruct (snd (operators t b true f)); cbn; try reflexivity
  | |- context [fst (operators ?t ?b true ?f)] => destruct (fst (operators t b true f)); cbn; try reflexivity
  | o : option _ |- _ => destruct o; cbn; try reflexivity
  end.

(** as_projection "wraps a function and exposes only its unary overload", as_comparison the binary one: pointers to members too, and the result can be
    called directly. *)
Theorem C95_as_projection :
  forall (V : Type) (truth : V -> bool) (of_bool : bool -> V) (f : callable V) (x y : V),
    direct1 truth of_bool (as_projection f) x = invoke1 truth of_bool f x /\ invoke1 truth of_bool (as_projection f) x = invoke1 truth of_bool f x /\
    direct2 truth of_bool (as_projection f) x y = None /\ invoke2 truth of_bool (as_projection f) x y = None.
Proof. intros V truth of_bool f x y. destruct f; repeat split; reflexivity. Qed.
Print Assumptions C95_as_projection.

Theorem C95_as_comparison :
  forall (V : Type) (truth : V -> bool) (of_bool : bool -> V) (f : callable V) (x y : V),
    direct2 truth of_bool (as_comparison f) x y = invoke2 truth of_bool f x y /\
    invoke2 truth of_bool (as_comparison f) x y = invoke2 truth of_bool f x y /\
    direct1 truth of_bool (as_comparison f) x = None /\ invoke1 truth of_bool (as_comparison f) x = None.
Proof. intros V truth of_bool f x y. destruct f; repeat split; reflexivity. Qed.
Print Assumptions C95_as_comparison.

(** flip exchanges the arguments of every callable, however it was made. *)
Theorem C95_flip :
  forall (V : Type) (truth : V -> bool) (of_bool : bool -> V) (f : callable V) (x y : V),
    invoke2 truth of_bool (flip f) x y = invoke2 truth of_bool f y x.
Proof.
  intros V truth of_bool f. unfold invoke2. induction f as [one two t|one two| |f _|f _|f _|f _|c IHc p _]; intros x y.
  - cbn. parts.
  - cbn. parts.
  - reflexivity.
  - reflexivity.
  - cbn. parts.
  - cbn. parts.
  - destruct f; cbn; try reflexivity; parts.
  - cbn. destruct (fst (operators truth of_bool true p)) as [h|].
    + specialize (IHc (h x) (h y)). destruct (snd (operators truth of_bool true (flip c))), (snd (operators truth of_bool true c)); cbn in *; congruence.
    + parts.
Qed.
Print Assumptions C95_flip.

(** not_fn negates every callable, with one argument and with two. *)
Theorem C95_not_fn :
  forall (V : Type) (truth : V -> bool) (of_bool : bool -> V) (f : callable V) (x y : V), (forall b, truth (of_bool b) = b) ->
    option_map truth (invoke2 truth of_bool (not_fn f) x y) = option_map negb (option_map truth (invoke2 truth of_bool f x y)) /\
    option_map truth (invoke1 truth of_bool (not_fn f) x) = option_map negb (option_map truth (invoke1 truth of_bool f x)).
Proof.
  intros V truth of_bool f x y HB. revert x y. unfold invoke1, invoke2.
  induction f as [one two t|one two| |f _|f _|f _|f _|c IHc p _]; intros x y.
  - split; cbn; try reflexivity; parts; now rewrite HB.
  - split; cbn; try reflexivity; parts; now rewrite HB.
  - split; cbn; [reflexivity|now rewrite HB].
  - split; cbn; try reflexivity; parts; now rewrite HB.
  - split; cbn; try reflexivity; parts; now rewrite HB.
  - destruct f; split; cbn; try reflexivity; parts; now rewrite ?HB, ?negb_involutive.
  - split; cbn; try reflexivity; parts; now rewrite HB, negb_involutive.
  - split; [|reflexivity]. cbn. destruct (fst (operators truth of_bool true p)) as [h|].
    + destruct (IHc (h x) (h y)) as [IH _].
      destruct (snd (operators truth of_bool true (not_fn c))), (snd (operators truth of_bool true c)); cbn in *; congruence.
    + destruct (snd (operators truth of_bool true (not_fn c))), (snd (operators truth of_bool true c)); reflexivity.
Qed.
Print Assumptions C95_not_fn.

(** make_projection_compare compares the results of the projection. *)
Theorem C95_projection_compare :
  forall (V : Type) (truth : V -> bool) (of_bool : bool -> V) (c p : callable V) (x y px py : V),
    invoke1 truth of_bool p x = Some px -> invoke1 truth of_bool p y = Some py ->
    invoke2 truth of_bool (make_projection_compare c p) x y = invoke2 truth of_bool c px py.
Proof.
  intros V truth of_bool c p x y px py. unfold invoke1, invoke2.
  assert (make_projection_compare c p = ProjectionCompare c p \/ p = Identity) as [->| ->] by (destruct p; auto).
  - cbn. destruct (fst (operators truth of_bool true p)); cbn; try discriminate. intros E F. inversion E. inversion F.
    now destruct (snd (operators truth of_bool true c)).
  - cbn. intros E F. inversion E. inversion F. reflexivity.
Qed.
Print Assumptions C95_projection_compare.

(** The result is transparent exactly when what it is made of is. *)
Theorem C95_transparent :
  forall (V : Type) (f c p : callable V),
    is_transparent (flip f) = is_transparent f /\ is_transparent (not_fn f) = is_transparent f /\
    is_transparent (as_projection f) = is_transparent f /\ is_transparent (as_comparison f) = is_transparent f /\
    is_transparent (make_projection_compare c p) = (is_transparent c && is_transparent p)%bool.
Proof.
  intros V f c p. repeat split.
  - induction f; cbn; try reflexivity. { destruct f; reflexivity. } now rewrite IHf1.
  - induction f; cbn; try reflexivity. { destruct f; reflexivity. } now rewrite IHf1.
  - destruct f; reflexivity.
  - destruct f; reflexivity.
  - destruct p; cbn; rewrite ?andb_true_r; reflexivity.
Qed.
Print Assumptions C95_transparent.

(** "allowing to provide projection support to algorithms that only support comparisons, such as standard library algorithms": these call the
    comparison directly.  What flip, not_fn and make_projection_compare return can be called directly unless it is a pointer to member; the full
    statement has no condition. *)
Theorem C95_direct_partial :
  forall (V : Type) (truth : V -> bool) (of_bool : bool -> V) (f : callable V) (x y : V),
    (forall one two, f <> Member one two) ->
    direct1 truth of_bool f x = invoke1 truth of_bool f x /\ direct2 truth of_bool f x y = invoke2 truth of_bool f x y.
Proof. intros V truth of_bool f x y H. destruct f; try (split; reflexivity). now destruct (H one two). Qed.
Print Assumptions C95_direct_partial.

(** It is one exactly for a flip of a flip, a negation of a negation and an identity projection. *)
Theorem C95_direct_cases :
  forall (V : Type) (f p m : callable V), (exists one two, m = Member one two) ->
    (flip f = m <-> f = FlipT m) /\ (not_fn f = m <-> f = NotFnT m) /\ (make_projection_compare f p = m <-> p = Identity /\ f = m).
Proof.
  intros V f p m (one & two & ->). repeat split.
  - destruct f; cbn; try discriminate; try (intros ->; reflexivity). destruct f; discriminate.
  - intros ->. reflexivity.
  - destruct f; cbn; try discriminate; try (intros ->; reflexivity). destruct f; discriminate.
  - intros ->. reflexivity.
  - destruct p; cbn; try discriminate. auto.
  - destruct p; cbn in *; try discriminate. auto.
  - intros [-> ->]. reflexivity.
Qed.
Print Assumptions C95_direct_cases.

Theorem C95_direct_refuted :
  forall (V : Type) (truth : V -> bool) (of_bool : bool -> V) (g : V -> V -> V) (x y : V),
    let method := Member None (Some g) in
    invoke2 truth of_bool method x y = Some (g x y) /\
    direct2 truth of_bool (flip method) x y = Some (g y x) /\ direct2 truth of_bool (flip (flip method)) x y = None /\
    direct2 truth of_bool (not_fn (not_fn method)) x y = None /\ direct2 truth of_bool (make_projection_compare method Identity) x y = None.
Proof. repeat split; reflexivity. Qed.
Print Assumptions C95_direct_refuted.

Example C95_case :
  let truth n := negb (n =? 0) in let of_bool (b : bool) := if b then 1 else 0 in
  let both := Object (Some (fun x => x + 1)) (Some (fun x y => of_bool (x <? y))) true in
  let method := Member None (Some (fun x y => of_bool (x <? y))) in
  invoke1 truth of_bool (as_projection both) 4 = Some 5 /\ invoke2 truth of_bool (as_projection both) 4 5 = None /\
    invoke2 truth of_bool (as_comparison both) 4 5 = Some 1 /\ invoke2 truth of_bool (flip method) 4 5 = Some 0 /\
    direct2 truth of_bool (as_comparison method) 4 5 = Some 1 /\
    invoke2 truth of_bool (flip (ProjectionCompare (NotFnT (FlipT method)) (as_projection both))) 4 5 = Some 0 /\
    is_transparent (make_projection_compare both Identity) = true /\ is_transparent (make_projection_compare both method) = false.
Proof. repeat split; reflexivity. Qed.
