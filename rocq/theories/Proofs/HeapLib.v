(** Order facts about implicit d-ary heaps stored in a range of memory. *)
From Coq Require Import List Arith Lia Permutation Bool.
From Verif Require Import Spec.Order Lang.Mem Spec.Sorts Proofs.Wp Proofs.OrderLib.
Import ListNotations.

Section HeapLib.
Context {A : Type} (lt : A -> A -> bool).
Variables (D f : nat).
Hypothesis HD : 1 <= D.

Definition par (i : nat) : nat := (i - 1) / D.

Lemma par_lt : forall i, 1 <= i -> par i < i.
Proof.
  intros. unfold par. 
  assert ((i - 1) / D <= i - 1) by (apply Nat.div_le_upper_bound; nia). lia.
Qed.

Lemma par_spec : forall i p, 1 <= i -> (par i = p <-> p * D + 1 <= i < p * D + 1 + D).
Proof.
  intros. unfold par. pose proof (Nat.div_mod (i - 1) D ltac:(lia)).
  pose proof (Nat.mod_upper_bound (i - 1) D ltac:(lia)). split; intros.
  - subst p. nia.
  - symmetry. apply (Nat.div_unique (i - 1) D p (i - 1 - D * p)); nia.
Qed.

Lemma par_mono : forall i j, i <= j -> par i <= par j.
Proof. intros. unfold par. apply Nat.div_le_mono; lia. Qed.

(** Element [i] is not greater than element [p] (indices relative to [f]). *)
Definition ok (m : mem A) (i p : nat) : Prop :=
  forall x y, nth_error m (f + i) = Some (Val x) -> nth_error m (f + p) = Some (Val y) ->
    le lt x y.

Definition heap (s n : nat) (m : mem A) : Prop :=
  forall i, 1 <= i < n -> s <= par i -> ok m i (par i).

Definition heap_up (n c : nat) (m : mem A) : Prop :=
  (forall i, 1 <= i < n -> i <> c -> ok m i (par i)) /\
  (forall i, 1 <= i < n -> par i = c -> 1 <= c -> ok m i (par c)).

Definition heap_down (s n c : nat) (m : mem A) : Prop :=
  (forall i, 1 <= i < n -> s <= par i -> par i <> c -> ok m i (par i)) /\
  (forall i, 1 <= i < n -> par i = c -> s < c -> s <= par c -> ok m i (par c)).

(** Heap except at the position [c] itself: as child and as parent. *)
Definition heap_hole (n c : nat) (m : mem A) : Prop :=
  (forall i, 1 <= i < n -> i <> c -> par i <> c -> ok m i (par i)) /\
  (forall i, 1 <= i < n -> par i = c -> 1 <= c -> ok m i (par c)).

Hypothesis HW : strict_weak_order lt.

Notation sw i j a b m := (upd (f + j) (Val a) (upd (f + i) (Val b) m)).

Lemma heap_up_step : forall n c m x y, 1 <= c ->
  nth_error m (f + c) = Some (Val x) -> nth_error m (f + par c) = Some (Val y) ->
  lt y x = true -> heap_up n c m -> c < n ->
  heap_up n (par c) (sw (par c) c y x m).
Proof.
  intros n c m x y Hc Hx Hy Hlt [H1 H2] Hn.
  pose proof (nth_lt _ _ _ Hx). pose proof (nth_lt _ _ _ Hy).
  pose proof (par_lt c Hc) as Hpc.
  split.
  - intros i Hi Hip u v Hu Hv. pose proof (par_lt i ltac:(lia)) as Hpi.
    destruct (Nat.eq_dec i c) as [->|Hic].
    + upd_cases. apply lt_le; auto.
    + destruct (Nat.eq_dec (par i) (par c)) as [Epp|Epp].
      * assert (f + par c = f + par i) as Epp' by lia.
        upd_cases.
        assert (le lt u y). { apply (H1 i Hi Hic); auto. now rewrite Epp. }
        eapply (le_trans lt HW); [eassumption|]. apply lt_le; auto.
      * destruct (Nat.eq_dec (par i) c) as [Epc|Epc].
        -- upd_cases. apply (H2 i Hi Epc Hc); auto.
        -- upd_cases. apply (H1 i); auto.
  - intros i Hi Hpp Hp u v Hu Hv. pose proof (par_lt (par c) ltac:(lia)).
    pose proof (par_lt i ltac:(lia)).
    destruct (Nat.eq_dec i c) as [->|Hic].
    + upd_cases. apply (H1 (par c)); auto; lia.
    + upd_cases.
      eapply (le_trans lt HW) with y.
      * apply (H1 i); auto. now rewrite Hpp.
      * apply (H1 (par c)); auto; lia.
Qed.

Lemma heap_up_done : forall n c m, heap_up n c m ->
  (1 <= c -> c < n -> ok m c (par c)) -> heap 0 n m.
Proof.
  intros n c m [H1 H2] Hc i Hi _. destruct (Nat.eq_dec i c) as [->|]; auto.
  apply Hc; lia.
Qed.

Lemma heap_down_step : forall s n c j m x y, s <= c -> 1 <= j < n -> par j = c ->
  nth_error m (f + c) = Some (Val x) -> nth_error m (f + j) = Some (Val y) ->
  le lt x y -> (forall i, 1 <= i < n -> par i = c -> ok m i j) ->
  heap_down s n c m ->
  heap_down s n j (sw j c y x m).
Proof.
  intros s n c j m x y Hs Hj Ep Hx Hy Hle Hmax [H1 H2].
  pose proof (nth_lt _ _ _ Hx). pose proof (nth_lt _ _ _ Hy).
  pose proof (par_lt j ltac:(lia)) as Hpj.
  split.
  - intros i Hi His Hpi u v Hu Hv. pose proof (par_lt i ltac:(lia)) as Hpi'.
    destruct (Nat.eq_dec (par i) c) as [Epc|Epc].
    + destruct (Nat.eq_dec i j) as [->|Hij].
      * upd_cases. auto.
      * upd_cases. apply (Hmax i); auto.
    + destruct (Nat.eq_dec i c) as [->|Hic].
      * upd_cases. eapply (H2 j); auto; lia.
      * destruct (Nat.eq_dec i j) as [->|Hij]; [congruence|].
        upd_cases. apply (H1 i); auto.
  - intros i Hi Epi Hsj Hsp u v Hu Hv. rewrite Ep in *.
    pose proof (par_lt i ltac:(lia)). upd_cases.
    apply (H1 i); auto; try congruence; try lia.
Qed.

Lemma heap_down_done : forall s n c m, heap_down s n c m ->
  (forall i, 1 <= i < n -> par i = c -> ok m i c) -> heap s n m.
Proof.
  intros s n c m [H1 H2] Hc i Hi Hs. destruct (Nat.eq_dec (par i) c) as [E|]; auto.
  rewrite E. auto.
Qed.

(** The hole moves down to its greatest child [j]. *)
Lemma heap_hole_step : forall n c j m x y, 1 <= j < n -> par j = c ->
  nth_error m (f + c) = Some (Val x) -> nth_error m (f + j) = Some (Val y) ->
  (forall i, 1 <= i < n -> par i = c -> ok m i j) ->
  heap_hole n c m ->
  heap_hole n j (sw j c y x m).
Proof.
  intros n c j m x y Hj Ep Hx Hy Hmax [H1 H2].
  pose proof (nth_lt _ _ _ Hx). pose proof (nth_lt _ _ _ Hy).
  pose proof (par_lt j ltac:(lia)) as Hpj.
  split.
  - intros i Hi Hij Hpi u v Hu Hv. pose proof (par_lt i ltac:(lia)) as Hpi'.
    destruct (Nat.eq_dec (par i) c) as [Epc|Epc].
    + upd_cases. apply (Hmax i); auto.
    + destruct (Nat.eq_dec i c) as [->|Hic].
      * upd_cases. eapply (H2 j); auto; lia.
      * upd_cases. apply (H1 i); auto.
  - intros i Hi Epi Hsj u v Hu Hv. rewrite Ep in *.
    pose proof (par_lt i ltac:(lia)). upd_cases.
    apply (H1 i); auto; try congruence; try lia.
Qed.

(** The root of a heap is its maximum. *)
Lemma heap_root_max : forall n m, heap 0 n m -> full f (f + n) m ->
  forall i, i < n -> ok m i 0.
Proof.
  intros n m Hh Hf i. induction i as [i IH] using lt_wf_ind. intros Hi x y Hx Hy.
  destruct (Nat.eq_dec i 0) as [->|Hi0].
  - assert (x = y) by congruence. subst. apply le_refl; auto.
  - pose proof (par_lt i ltac:(lia)).
    destruct (proj2 Hf (f + par i) ltac:(lia)) as (z & Hz).
    eapply (le_trans lt HW) with z.
    + apply (Hh i); auto; lia.
    + eapply IH; eauto; lia.
Qed.
End HeapLib.
