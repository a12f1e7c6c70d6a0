(** Distribution of the elements of a list among bins: counting, and the frontiers of the elements already in place. *)
From Coq Require Import List Arith Lia Permutation Bool.
From Verif Require Import Spec.Order Lang.Mem Proofs.Wp Proofs.OrderLib Proofs.Search.
Import ListNotations.

Section Positions.
Context {A : Type} (f : A -> bool).
(** Distinct positions that satisfy [f] are not more numerous than the elements that do. *)
Lemma count_positions : forall (l : list A) ps, NoDup ps -> (forall i, In i ps -> exists x, nth_error l i = Some x /\ f x = true) -> length ps <= length (filter f l).
Proof.
  induction l as [|a l IH]; intros ps ND H.
  { destruct ps as [|i ps]; auto. destruct (H i (or_introl eq_refl)) as (x & Hx & _). destruct i; discriminate. }
  assert (HS : length (map Nat.pred (filter (fun i => negb (i =? 0)) ps)) <= length (filter f l)).
  { apply IH.
    - assert (HN : NoDup (filter (fun i => negb (i =? 0)) ps)) by now apply NoDup_filter.
      assert (HP : forall i, In i (filter (fun i => negb (i =? 0)) ps) -> i <> 0). { intros i Hi. apply filter_In in Hi as [_ Hi]. destruct (Nat.eqb_spec i 0); [discriminate|auto]. }
      clear H. induction HN as [|i q Hi HN IHN]; cbn [map]; constructor.
      + rewrite in_map_iff. intros (j & E & Hj). assert (i <> 0) by (apply HP; now left). assert (j <> 0) by (apply HP; now right). replace j with i in Hj by lia. auto.
      + apply IHN. intros j Hj. apply HP. now right.
    - intros i Hi. apply in_map_iff in Hi as (j & <- & Hj). apply filter_In in Hj as [Hj H0]. destruct (Nat.eqb_spec j 0); [discriminate|].
      destruct (H j Hj) as (x & Hx & Hf). destruct j as [|j]; [congruence|]. exists x. auto. }
  rewrite map_length in HS.
  assert (HZ : length ps <= length (filter (fun i => negb (i =? 0)) ps) + (if f a then 1 else 0)).
  { assert (In 0 ps -> f a = true). { intros H0. destruct (H 0 H0) as (x & Hx & Hf). now injection Hx as ->. }
    clear H HS IH. induction ND as [|i q Hi HN IHN]; cbn [filter length]; [lia|]. destruct (Nat.eqb_spec i 0) as [->|]; cbn [negb length].
    - rewrite H0 by (now left). assert (HF : filter (fun i => negb (i =? 0)) q = q).
      { clear - Hi. induction q as [|j q IH]; auto. cbn [filter]. destruct (Nat.eqb_spec j 0) as [->|]. { exfalso. apply Hi. now left. } cbn [negb]. rewrite IH; auto. intros Hq. apply Hi. now right. }
      rewrite HF. lia.
    - assert (In 0 q -> f a = true) by (intros; apply H0; now right). specialize (IHN H). lia. }
  cbn [filter]. destruct (f a); cbn [length]; lia.
Qed.
End Positions.

Lemma filter_len_perm : forall A (f : A -> bool) l l', Permutation l l' -> length (filter f l) = length (filter f l').
Proof. intros A f l l' HP. induction HP; cbn [filter]; auto; try congruence; repeat match goal with |- context [f ?x] => destruct (f x) end; cbn [length]; congruence. Qed.

Section Bins.
Context {A : Type} (nb : nat) (bin : A -> nat) (xs : list A).
Hypothesis HB : forall x, In x xs -> bin x < nb.

Definition cnt (p : nat) : nat := length (filter (fun x => bin x =? p) xs).
Fixpoint start (p : nat) : nat := match p with 0 => 0 | S p => start p + cnt p end.

Lemma start_S : forall p, start (S p) = start p + cnt p.
Proof. reflexivity. Qed.
Lemma start_mono : forall p q, p <= q -> start p <= start q.
Proof. induction 1; auto. rewrite start_S. lia. Qed.

Lemma start_filter : forall p, start p = length (filter (fun x => bin x <? p) xs).
Proof.
  clear HB. induction p as [|p IH]; [cbn [start]; induction xs; auto|]. rewrite start_S, IH. unfold cnt. clear IH. induction xs as [|x l IH]; auto. cbn [filter].
  destruct (Nat.ltb_spec (bin x) p), (Nat.eqb_spec (bin x) p), (Nat.ltb_spec (bin x) (S p)); cbn [length]; lia.
Qed.
Lemma start_all : start nb = length xs.
Proof.
  rewrite start_filter. f_equal. clear - HB. induction xs as [|x l IH]; auto. cbn [filter].
  assert (bin x < nb) by (apply HB; now left). destruct (Nat.ltb_spec (bin x) nb); [|lia]. f_equal. apply IH. intros y Hy. apply HB. now right.
Qed.
Lemma region_of : forall i, i < length xs -> exists p, p < nb /\ start p <= i < start (S p).
Proof.
  intros i Hi. rewrite <- start_all in Hi. clear HB. induction nb as [|n IH]; [cbn [start] in Hi; lia|].
  destruct (Nat.lt_ge_cases i (start n)) as [H|H]. { destruct (IH H) as (p & Hp & Hr). exists p. split; auto. }
  exists n. split; auto.
Qed.
Lemma region_uniq : forall i p q, start p <= i < start (S p) -> start q <= i < start (S q) -> p = q.
Proof.
  intros i p q Hp Hq. destruct (Nat.lt_trichotomy p q) as [H|[H|H]]; auto.
  - pose proof (start_mono (S p) q H). lia.
  - pose proof (start_mono (S q) p H). lia.
Qed.
Lemma cnt_pos : forall x, In x xs -> 0 < cnt (bin x).
Proof. intros x Hx. unfold cnt. assert (H : In x (filter (fun y => bin y =? bin x) xs)) by (apply filter_In; split; auto; apply Nat.eqb_refl). destruct (filter _ xs); [destruct H|simpl; lia]. Qed.

(** The elements before the frontier [w p] of the region of each bin [p] are in that bin. *)
Definition placed (ys : list A) (w : nat -> nat) : Prop :=
  forall p, p < nb -> start p <= w p <= start (S p) /\ forall i x, start p <= i < w p -> nth_error ys i = Some x -> bin x = p.
(** All the elements are in the region of their bin. *)
Definition blocked (ys : list A) : Prop := forall i x, nth_error ys i = Some x -> start (bin x) <= i < start (S (bin x)).

Section Perm.
Context (ys : list A).
Hypothesis HP : Permutation xs ys.

Lemma in_bin : forall i x, nth_error ys i = Some x -> bin x < nb.
Proof. intros i x Hx. apply HB. eapply Permutation_in; [symmetry; exact HP|]. eapply nth_error_In; eauto. Qed.
Lemma perm_len : length ys = length xs.
Proof. now rewrite (Permutation_length HP). Qed.
Lemma cnt_perm : forall p, length (filter (fun x => bin x =? p) ys) = cnt p.
Proof. intros p. unfold cnt. apply filter_len_perm. now symmetry. Qed.

Lemma placed_room : forall w i x, placed ys w -> nth_error ys i = Some x -> ~ (start (bin x) <= i < w (bin x)) -> w (bin x) < start (S (bin x)).
Proof.
  intros w i x HW Hx Hi. set (p := bin x) in *. assert (Hp : p < nb) by (eapply in_bin; eauto). destruct (HW p Hp) as [H1 H2].
  assert (HC : length (i :: seq (start p) (w p - start p)) <= length (filter (fun x => bin x =? p) ys)).
  { apply count_positions.
    - constructor; [|apply seq_NoDup]. rewrite in_seq. lia.
    - intros j [<-|Hj]. { exists x. split; auto. apply Nat.eqb_refl. }
      apply in_seq in Hj. destruct (nth_some _ ys j) as (y & Hy). { rewrite perm_len, <- start_all. pose proof (start_mono (S p) nb Hp). lia. }
      exists y. split; auto. apply Nat.eqb_eq. apply (H2 j); auto. lia. }
  cbn [length] in HC. rewrite seq_length, cnt_perm in HC. rewrite start_S in *. lia.
Qed.

(** If only one bin may not be complete, then it is complete. *)
Lemma placed_blocked : forall w q, placed ys w -> (forall p, p < nb -> p <> q -> w p = start (S p)) -> blocked ys.
Proof.
  intros w q HW HF i x Hx. assert (Hp : bin x < nb) by (eapply in_bin; eauto).
  destruct (region_of i) as (r & Hr & Hi). { rewrite <- perm_len. now apply nth_lt in Hx. }
  destruct (Nat.eq_dec (bin x) r) as [->|HN]; auto. exfalso.
  destruct (Nat.eq_dec r q) as [->|HQ].
  - assert (w (bin x) < start (S (bin x))). { eapply placed_room; eauto. rewrite (HF (bin x)) by auto. intros H. apply HN. eapply region_uniq; eauto. }
    rewrite (HF (bin x)) in H by auto. lia.
  - apply HN. destruct (HW r Hr) as [_ H2]. apply (H2 i); auto. rewrite HF; auto.
Qed.
End Perm.

Definition bump (w : nat -> nat) (p : nat) : nat -> nat := fun j => if j =? p then S (w p) else w j.
Lemma bump_eq : forall w p, bump w p p = S (w p).
Proof. intros. unfold bump. now rewrite Nat.eqb_refl. Qed.
Lemma bump_ne : forall w p q, q <> p -> bump w p q = w q.
Proof. intros. unfold bump. destruct (Nat.eqb_spec q p); congruence. Qed.

(** The element at position [i] is put at the frontier of its bin. *)
Lemma placed_swap : forall ys w i x y, Permutation xs ys -> placed ys w -> nth_error ys i = Some x -> (forall q, q < nb -> ~ (start q <= i < w q)) ->
  nth_error ys (w (bin x)) = Some y -> placed (upd (w (bin x)) x (upd i y ys)) (bump w (bin x)).
Proof.
  intros ys w i x y HP HW Hx Hi Hy. assert (Hp : bin x < nb) by (eapply in_bin; eauto).
  assert (HR : w (bin x) < start (S (bin x))) by (eapply placed_room; eauto).
  set (p := bin x) in *. intros r Hr. destruct (HW r Hr) as [H1 H2]. destruct (Nat.eq_dec r p) as [->|HN].
  - rewrite bump_eq. split; [lia|]. intros j z Hj Hz. destruct (Nat.eq_dec j (w p)) as [->|].
    + rewrite nth_upd_eq in Hz by (rewrite upd_length; apply nth_lt in Hy; auto). now injection Hz as <-.
    + rewrite nth_upd_ne in Hz by auto. destruct (Nat.eq_dec j i) as [->|]; [exfalso; apply (Hi p); auto; lia|]. rewrite nth_upd_ne in Hz by auto. apply (H2 j); auto. lia.
  - rewrite bump_ne by auto. split; [lia|]. intros j z Hj Hz. rewrite nth_upd_ne in Hz.
    + destruct (Nat.eq_dec j i) as [->|]; [exfalso; apply (Hi r); auto|]. rewrite nth_upd_ne in Hz by auto. apply (H2 j); auto.
    + intros E. subst j. apply HN. destruct (HW p Hp) as [H3 _]. eapply (region_uniq (w p)); lia.
Qed.
(** The element at the frontier of its bin stays. *)
Lemma placed_stay : forall ys w x, Permutation xs ys -> placed ys w -> nth_error ys (w (bin x)) = Some x -> placed ys (bump w (bin x)).
Proof.
  intros ys w x HP HW Hx. assert (Hp : bin x < nb) by (eapply in_bin; eauto).
  assert (HR : w (bin x) < start (S (bin x))). { eapply placed_room; eauto. lia. }
  intros r Hr. destruct (HW r Hr) as [H1 H2]. destruct (Nat.eq_dec r (bin x)) as [->|HN].
  - rewrite bump_eq. split; [lia|]. intros j z Hj Hz. destruct (Nat.eq_dec j (w (bin x))) as [->|]; [congruence|]. apply (H2 j); auto. lia.
  - rewrite bump_ne by auto. split; auto.
Qed.

(** How many positions are not behind a frontier. *)
Definition slack (w : nat -> nat) : nat := list_sum (map (fun p => start (S p) - w p) (seq 0 nb)).
Lemma sum_le : forall (g h : nat -> nat) l, (forall p, In p l -> g p <= h p) -> list_sum (map g l) <= list_sum (map h l).
Proof. induction l as [|p l IH]; intros H; cbn; auto. assert (g p <= h p) by (apply H; now left). specialize (IH (fun q Hq => H q (or_intror Hq))). unfold list_sum in IH. lia. Qed.
Lemma slack_bump : forall w p, p < nb -> w p < start (S p) -> slack (bump w p) < slack w.
Proof.
  intros w p Hp Hw. unfold slack. assert (HI : In p (seq 0 nb)) by (apply in_seq; lia). apply in_split in HI as (l1 & l2 & E). rewrite E.
  rewrite !map_app, !list_sum_app. cbn [map list_sum fold_right]. rewrite bump_eq.
  assert (forall l, list_sum (map (fun p0 => start (S p0) - bump w p p0) l) <= list_sum (map (fun p0 => start (S p0) - w p0) l)).
  { intros l. apply sum_le. intros q _. unfold bump. destruct (Nat.eqb_spec q p) as [->|]; lia. }
  pose proof (H l1). pose proof (H l2). unfold list_sum in *. lia.
Qed.
Lemma slack_init : forall ys w, placed ys w -> slack w <= length xs.
Proof.
  intros ys w HW. rewrite <- start_all. unfold slack. assert (H : forall n, n <= nb -> list_sum (map (fun p => start (S p) - w p) (seq 0 n)) <= start n).
  { induction n as [|n IH]; intros Hn; [cbn; lia|]. rewrite seq_S, map_app, list_sum_app. cbn [map list_sum fold_right plus]. destruct (HW n) as [H1 _]; [lia|]. specialize (IH ltac:(lia)). rewrite start_S in *. unfold list_sum in *. lia. }
  apply H. auto.
Qed.

(** The regions of a list. *)
Definition region (ys : list A) (p : nat) : list A := firstn (cnt p) (skipn (start p) ys).
Lemma regions_concat : forall ys, length ys = length xs -> flat_map (region ys) (seq 0 nb) = ys.
Proof.
  intros ys HL. assert (H : forall n, n <= nb -> flat_map (region ys) (seq 0 n) = firstn (start n) ys).
  { induction n as [|n IH]; intros Hn; auto. rewrite seq_S, flat_map_app, IH by lia. cbn [flat_map plus]. rewrite app_nil_r. unfold region. rewrite start_S.
    rewrite <- (firstn_skipn (start n) ys) at 3. rewrite firstn_app, firstn_firstn, firstn_length.
    pose proof (start_mono (S n) nb Hn). rewrite start_all, start_S in H. replace (Nat.min (start n + cnt n) (start n)) with (start n) by lia. f_equal. f_equal. lia. }
  rewrite H by auto. rewrite start_all, <- HL. apply firstn_all.
Qed.
Lemma region_length : forall ys p, length ys = length xs -> p < nb -> length (region ys p) = cnt p.
Proof. intros ys p HL Hp. unfold region. rewrite firstn_length, skipn_length. pose proof (start_mono (S p) nb Hp). rewrite start_all, start_S in H. lia. Qed.
Lemma region_nth : forall ys p i x, nth_error (region ys p) i = Some x -> nth_error ys (start p + i) = Some x /\ i < cnt p.
Proof.
  intros ys p i x Hx. unfold region in Hx. assert (Hi : i < cnt p). { apply nth_lt in Hx. rewrite firstn_length in Hx. lia. }
  rewrite nth_firstn_lt in Hx by auto. rewrite nth_skipn in Hx. auto.
Qed.
Lemma region_bin : forall ys p x, blocked ys -> In x (region ys p) -> bin x = p.
Proof.
  intros ys p x HK Hx. apply In_nth_error in Hx as (i & Hi). apply region_nth in Hi as [Hi Hc]. specialize (HK _ _ Hi). eapply region_uniq; [exact HK|]. rewrite start_S. lia.
Qed.
End Bins.
