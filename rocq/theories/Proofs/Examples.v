(** A concrete strict weak order, for the examples beside the theorems: pairs of numbers compared by their first
    component, so that different elements can be equivalent. *)
From Coq Require Import List Arith Lia Bool.
From Verif Require Import Spec.Order.

Lemma nat_ltb_swo : strict_weak_order Nat.ltb.
Proof.
  constructor; intros.
  - apply Nat.ltb_irrefl.
  - apply Nat.ltb_lt in H, H0. apply Nat.ltb_lt. lia.
  - apply Nat.ltb_ge in H, H0, H1, H2. split; apply Nat.ltb_ge; lia.
Qed.

(** A comparator that is not a strict weak order: always true. *)
Definition bad_comp (x y : nat) : bool := true.
