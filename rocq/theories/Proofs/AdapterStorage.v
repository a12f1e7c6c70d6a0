(** Proofs about the storage of the adapters. *)
From Coq Require Import List Bool Arith Lia.
From Verif Require Import Model.AdapterStorage.
Import ListNotations.

(** A type that is empty has no state. *)
Fixpoint no_hidden_state (s : sorter) : Prop :=
  match s with
  | Sorter _ e _ state => e = true -> state = 0
  | Adapter _ s => no_hidden_state s
  | Hybrid _ flat => fold_right (fun s P => no_hidden_state s /\ P) True flat
  end.

Lemma default_constructed_stateless : forall s, no_hidden_state s -> stateless s = true -> default_constructed s = s.
Proof.
  fix IH 1. intros [t e d n|k s|ds flat] W H; unfold stateless in H; simpl in *.
  - apply andb_true_iff in H as [E _]. now rewrite (W E).
  - f_equal. apply IH; auto. unfold stateless. now apply andb_true_iff in H.
  - f_equal. apply andb_true_iff in H as [H _]. clear ds. revert flat W H. fix IHl 1. intros [|s l] W H; simpl in *; auto.
    apply andb_true_iff in H as [H1 H2]. destruct W as [W1 W2]. f_equal; auto.
Qed.

Lemma stored_id : forall s, no_hidden_state s -> stored s = s.
Proof. intros s W. unfold stored. destruct (stateless s) eqn:E; auto. now apply default_constructed_stateless. Qed.

Lemma map_stored_id : forall l, Forall no_hidden_state l -> map stored l = l.
Proof. induction 1; simpl; auto. now rewrite stored_id, IHForall. Qed.

Lemma no_hidden_state_flat : forall d flat, no_hidden_state (Hybrid d flat) <-> Forall no_hidden_state flat.
Proof.
  intros d flat. simpl. induction flat as [|s l IH]; simpl; split; auto.
  - intros [H1 H2]. constructor; auto. now apply IH.
  - intros H. inversion H. split; auto. now apply IH.
Qed.

Lemma same_type_refl : forall s, same_type s s = true.
Proof.
  fix IH 1. intros [t e d n|k s|ds flat]; simpl.
  - now rewrite Nat.eqb_refl, !eqb_reflx.
  - now rewrite Nat.eqb_refl, IH.
  - revert ds. fix IHl 1. intros [|s l]; auto. now rewrite IH, IHl.
Qed.
