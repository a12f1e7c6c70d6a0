(** C91: the iterators of the adapters act like the pointers that they wrap. *)
From Coq Require Import List ZArith Bool Lia.
From Verif Require Import Spec.IteratorOperations Model.IteratorWrapper.
Import ListNotations.
Local Open Scope Z_scope.

Definition postfix (i : instruction) : bool := match i with PostIncrement _ _ | PostDecrement _ _ => true | _ => false end.

(** The base of every variable, and all that is observed, is what it would be for pointers; partial for associate_iterator, which has no postfix
    operators. *)
Theorem C91_iterator_wrapper_partial :
  forall (w : wrapper) (program : list instruction) (v : wrapped) (p : variables),
    (forall x, base (v x) = p x) ->
    (w = Associate -> forall i, In i program -> postfix i = false) ->
    exists v' l, run w program v = Some (v', l) /\ l = snd (execute program p) /\ (forall x, base (v' x) = fst (execute program p) x).
Proof.
  intros w program. induction program as [|i program IH]; intros v p H P; [exists v, []; auto|].
  assert (S : exists v', run_one w i v = Some (v', observed i p) /\ forall x, base (v' x) = pointers_after i p x).
  { destruct i; simpl;
      try (eexists; split; [reflexivity|intros z; unfold assign, set; cbn; repeat (destruct (Nat.eqb _ z)); cbn; auto;
           unfold base in H; rewrite ?H; reflexivity]);
      try (destruct w; [now specialize (P eq_refl _ (or_introl eq_refl))|]; simpl;
           eexists; split; [reflexivity|intros z; unfold assign, set; cbn; repeat (destruct (Nat.eqb _ z)); cbn; auto;
           unfold base in H; rewrite ?H; reflexivity]);
      (exists v; split; [|exact H]; unfold difference, arrow, dereference, subscript, equal, not_equal, less, less_equal, greater, greater_equal;
       rewrite ?Z.gtb_ltb, ?Z.geb_leb; unfold base in *; rewrite ?H; reflexivity). }
  destruct S as (v1 & S1 & S2).
  destruct (IH v1 (pointers_after i p) S2) as (v2 & l & R & L & B); [intros E j J; apply P; simpl; auto|].
  exists v2, (observed i p :: l). simpl. rewrite S1, R. destruct (execute program (pointers_after i p)) as [q m]. simpl in *. now subst l.
Qed.
Print Assumptions C91_iterator_wrapper_partial.

(** "make_stable is used to transform it into a stable sorting algorithm, providing the underlying algorithm handles proxy iterators"
    (docs/Library-nomenclature.md:60): not if it uses a postfix operator, which random-access iterators have. *)
Theorem C91_postfix_refuted :
  forall (before after : list instruction) (i : instruction) (v : wrapped), postfix i = true -> run Associate (before ++ i :: after) v = None.
Proof.
  intros before after i v P. revert v. induction before as [|j l IH]; intros v; simpl.
  - now destruct i.
  - destruct (run_one Associate j v) as [[v' o]|]; auto. now rewrite IH.
Qed.
Print Assumptions C91_postfix_refuted.

(** y = x++; z = y + 3; z - x; *z; z[-2]; x < z *)
Example C91_case :
  let program := [PostIncrement 1 0; Plus 2 1 3; Difference 2 0; Dereference 2; Subscript 2 (-2); Less 0 2] in
  (exists v, run FakeCategory program (fun _ => Wrap 10) = Some (v, [Nothing; Nothing; Number 2; Element 13; Element 11; Boolean true]) /\
    base (v 0%nat) = 11 /\ base (v 1%nat) = 10) /\
  run Associate program (fun _ => Wrap 10) = None /\
  (exists v, run Associate (tl program) (fun _ => Wrap 10) = Some (v, [Nothing; Number 3; Element 13; Element 11; Boolean true])).
Proof. repeat split; eexists; repeat split. Qed.
