(** Proofs about Model/IterMove.v. *)
From Coq Require Import ZArith Arith Bool Lia.
From Verif Require Import Model.IterMove Spec.IterMove.

Lemma adl_move_spec : forall t, adl_move t = true <-> exists k, t = Base k /\ dedicated_move k = true.
Proof.
  intros [k|t|t]; simpl; split; intros H; try discriminate; eauto; destruct H as (k' & E & H); inversion E; subst; auto.
Qed.

Lemma iter_move_plain : forall t sc z, dedicated_move (innermost t) = false -> iter_move sc t z = ByStdMove (element t z).
Proof.
  induction t as [k|t IH|t IH]; intros sc z H; cbn [iter_move innermost element] in *.
  - now rewrite H.
  - destruct sc; auto; destruct (has_iter_move _); auto.
  - destruct sc; auto; destruct (has_iter_move _); auto.
Qed.

Lemma iter_move_adapted : forall t sc z, adapted t -> iter_move sc t z = ByStdMove (element t z).
Proof.
  induction t as [k|t IH|t IH]; intros sc z H; [now destruct (H k)| |]; cbn [iter_move element].
  - assert (has_iter_move (Reverse t) = true \/ adapted t \/ dedicated_move (innermost t) = false) as [E|[E|E]].
    { destruct t as [k|t|t]; [|right; left; discriminate..]. unfold has_iter_move; simpl. destruct (dedicated_move k); auto. }
    + destruct sc; auto; now rewrite E.
    + rewrite (IH UpToReverse (prev t z) E). destruct sc; auto; destruct (has_iter_move _); auto.
    + rewrite (iter_move_plain t UpToReverse (prev t z) E). destruct sc; auto; destruct (has_iter_move _); auto.
  - assert (has_iter_move (Move t) = true \/ adapted t \/ dedicated_move (innermost t) = false) as [E|[E|E]].
    { destruct t as [k|t|t]; [|right; left; discriminate..]. unfold has_iter_move; simpl. destruct (dedicated_move k); auto. }
    + destruct sc; auto; now rewrite E.
    + rewrite (IH All z E). destruct sc; auto; destruct (has_iter_move _); auto.
    + rewrite (iter_move_plain t All z E). destruct sc; auto; destruct (has_iter_move _); auto.
Qed.

Lemma iter_swap_adapted : forall t sc x y, adapted t -> iter_swap sc t x y = swap t x y.
Proof. intros [k|t|t] sc x y H; [now destruct (H k)|reflexivity..]. Qed.

Lemma not_moving : forall t, ~ adapted t -> exists k, t = Base k.
Proof. intros [k|t|t] H; eauto; destruct H; discriminate. Qed.

Lemma element_forward : forall t, forward t = (if Nat.odd (reversals t) then -1 else 1)%Z /\
  forall z, element t z = (if Nat.odd (reversals t) then z - 1 else z)%Z.
Proof.
  induction t as [k|t [IH1 IH2]|t [IH1 IH2]]; [split; reflexivity| |split; [exact IH1 | exact IH2]].
  cbn [forward element reversals]. rewrite Nat.odd_succ, <- Nat.negb_odd. unfold prev. rewrite IH1. split; [now destruct (Nat.odd _)|].
  intros z. rewrite IH2. destruct (Nat.odd _); simpl; lia.
Qed.

Lemma gives_rvalue_spec : forall t, gives_rvalue t = false <-> ~ contains_move t.
Proof.
  induction t as [k|t IH|t IH]; simpl; split; intros H.
  - intros H'; inversion H'.
  - reflexivity.
  - intros H'. inversion H'; subst. now apply IH in H.
  - apply IH. intros H'. apply H. now constructor.
  - discriminate.
  - destruct H. constructor.
Qed.
