(** Smoothsort. *)
From Coq Require Import List Arith Lia Permutation Bool.
From Verif Require Import Spec.Order Lang.Mem Spec.Sorts Proofs.Wp Proofs.OrderLib Model.Basic Proofs.Basic
  Model.Insertion Proofs.Insertion Model.Smooth Proofs.IndexLib Proofs.PdqPart Proofs.Pdq Model.Quick Proofs.Quick.
From Verif Require Proofs.Poplar.
Import ListNotations.

Lemma leo_0 : leo 0 = 1.
Proof. reflexivity. Qed.
Lemma leo_1 : leo 1 = 1.
Proof. reflexivity. Qed.
Lemma leo_SS : forall k, leo (S (S k)) = leo (S k) + leo k + 1.
Proof. intros. cbn [leo]. lia. Qed.
Lemma leo_ind : forall P : nat -> Prop, P 0 -> P 1 -> (forall k, P k -> P (S k) -> P (S (S k))) -> forall k, P k.
Proof. intros P H0 H1 HS k. enough (P k /\ P (S k)) by tauto. induction k; [auto|]. destruct IHk. auto. Qed.
Lemma leo_pos : forall k, 1 <= leo k.
Proof. induction k using leo_ind; [rewrite leo_0|rewrite leo_1|rewrite leo_SS]; lia. Qed.
Lemma leo_S : forall k, leo k <= leo (S k).
Proof. intros [|k]; [rewrite leo_0, leo_1; lia|]. rewrite leo_SS. lia. Qed.
Lemma leo_mono : forall k k', k <= k' -> leo k <= leo k'.
Proof. induction 1; auto. etransitivity; [eassumption|apply leo_S]. Qed.
Lemma leo_ge : forall k, k <= leo k.
Proof. induction k using leo_ind; [rewrite leo_0|rewrite leo_1|rewrite leo_SS; pose proof (leo_pos k)]; lia. Qed.
Global Opaque leo.

Lemma first_child_eq : forall b k, first_child (b + leo (S (S k)) - 1) (S (S k)) = b + leo (S k) - 1.
Proof. intros. unfold first_child, second_child. replace (S (S k) - 2) with k by lia. rewrite leo_SS. pose proof (leo_pos k). lia. Qed.
Lemma second_child_eq : forall b k, second_child (b + leo (S (S k)) - 1) = b + leo (S k) + leo k - 1.
Proof. intros. unfold second_child. rewrite leo_SS. lia. Qed.

(** The orders of the trees of a shape, last tree first. *)
Fixpoint orders (ts : list bool) (k : nat) : list nat :=
  match ts with
  | [] => []
  | t :: ts' => if t then k :: orders ts' (S k) else orders ts' (S k)
  end.

Lemma any_orders : forall ts k, any ts = false -> orders ts k = [].
Proof. induction ts as [|[|] ts IH]; intros k H; simpl in *; auto. discriminate. Qed.

Lemma scan_spec : forall ts k, orders ts k <> [] -> exists ts1 k1, scan ts k = (true :: ts1, k1) /\
  orders ts k = k1 :: orders ts1 (S k1) /\ length ts1 < length ts.
Proof.
  induction ts as [|[|] ts IH]; intros k H; [simpl in H; congruence| |].
  - simpl. exists ts, k. auto.
  - simpl in H |- *. destruct (any ts) eqn:E; [|exfalso; apply H; now apply any_orders].
    destruct (IH (S k) H) as (ts1 & k1 & -> & -> & HL). exists ts1, k1. cj; auto.
Qed.

Lemma scan_nil : forall ts k, orders ts k = [] -> orders (fst (scan ts k)) (snd (scan ts k)) = [].
Proof.
  induction ts as [|[|] ts IH]; intros k H; [reflexivity|discriminate|]. simpl in *. destruct (any ts); auto.
Qed.

(** The trees are next to each other and cover [f, c). *)
Fixpoint chain (f c : nat) (os : list nat) : Prop :=
  match os with
  | [] => c = f
  | k :: rest => leo k <= c /\ chain f (c - leo k) rest
  end.

Lemma chain_le : forall os f c, chain f c os -> f <= c /\ (os <> [] -> f < c).
Proof.
  induction os as [|k os IH]; intros f c H; simpl in H. { subst. split; auto. congruence. }
  destruct H as [H1 H2]. apply IH in H2 as [H2 _]. pose proof (leo_pos k). lia.
Qed.

Lemma chain_nil : forall os f, chain f f os -> os = [].
Proof. intros os f H. apply chain_le in H as [_ H]. destruct os; auto. specialize (H ltac:(discriminate)). lia. Qed.

(** Shapes while the heap is built: only the two last trees may have consecutive orders, and a tree of order 0 comes after one of order 1. *)
Definition sparse (ts : list bool) : Prop := forall i, bit i ts = true -> bit (S i) ts = false.
Definition wf (ts : list bool) (k : nat) : Prop := sparse ts /\ (k = 0 -> bit 0 ts = true).
Definition wfs (sh : shape) : Prop := sh = ([], 0) \/ exists ts, fst sh = true :: ts /\ wf ts (snd sh).

Lemma orders_head : forall ts k x rest, orders ts k = x :: rest -> k <= x /\ (bit 0 ts = true -> x = k) /\ (bit 0 ts = false -> k < x).
Proof.
  induction ts as [|[|] ts IH]; intros k x rest H; simpl in H; [discriminate| |].
  - injection H as -> _. unfold bit. simpl. cj; auto. discriminate.
  - apply IH in H. unfold bit. simpl. cj; try lia; discriminate.
Qed.

Lemma bit_orders : forall ts k, bit 0 ts = true -> exists rest, orders ts k = k :: rest.
Proof. intros [|[|] ts] k H; try discriminate. simpl. eauto. Qed.

Lemma orders_bit : forall ts k rest, orders ts k = k :: rest -> bit 0 ts = true.
Proof. intros ts k rest H. apply orders_head in H as (_ & _ & H). destruct (bit 0 ts); auto. specialize (H eq_refl). lia. Qed.

Lemma sparse_tl : forall ts, sparse ts -> sparse (tl ts).
Proof. intros [|t ts] H; auto. intros i. apply (H (S i)). Qed.

Lemma sparse_cons : forall t ts, sparse ts -> (t = true -> bit 0 ts = false) -> sparse (t :: ts).
Proof. intros t ts H H0 [|i]; [unfold bit; simpl; auto|]. apply (H i). Qed.

Lemma sparse_zeros : forall n ts, sparse ts -> sparse (repeat false n ++ ts).
Proof. induction n; intros; simpl; auto. apply sparse_cons; auto. discriminate. Qed.

Lemma orders_zeros : forall n ts k, orders (repeat false n ++ ts) k = orders ts (n + k).
Proof. induction n; intros; simpl; auto. rewrite IHn. f_equal. lia. Qed.

Lemma orders_sparse : forall ts k x y rest, sparse ts -> orders ts k = x :: y :: rest -> y <> S x.
Proof.
  induction ts as [|[|] ts IH]; intros k x y rest HS H; simpl in H; [discriminate| |].
  - injection H as <- H. intros ->. apply orders_bit in H. specialize (HS 0 eq_refl). unfold bit in *. simpl in HS. congruence.
  - apply (IH (S k) x y rest); auto. apply (sparse_tl _ HS).
Qed.

Lemma shape_add_spec : forall sh, wfs sh -> exists ts1 k1, shape_add sh = Some (true :: ts1, k1) /\ wf ts1 k1 /\
  ((k1 <= 1 /\ orders ts1 (S k1) = orders (fst sh) (snd sh)) \/
   (exists k0, k1 = S (S k0) /\ orders (fst sh) (snd sh) = k0 :: S k0 :: orders ts1 (S k1))).
Proof.
  intros [ts k] [H|(ts' & E & HS & H0)].
  { injection H as -> ->. exists [], 1. cj; auto. { split; [|lia]. intros [|i]; discriminate. } }
  simpl in E, H0, HS |- *. subst ts. unfold shape_add. change (bit 0 (true :: ts')) with true. change (bit 1 (true :: ts')) with (bit 0 ts').
  cbn [negb]. rewrite andb_true_r. destruct (bit 0 ts') eqn:E1.
  - destruct ts' as [|[|] ts']; try discriminate. pose proof (HS 0 eq_refl) as H2. change (bit 0 ts' = false) in H2.
    exists (tl ts'), (S (S k)). cbn [tl set_bit0]. replace (k + 2) with (S (S k)) by lia. cj; auto.
    + split; [|lia]. apply (sparse_tl _ (sparse_tl _ HS)).
    + right. exists k. split; auto. simpl. do 2 f_equal. destruct ts' as [|[|] ts']; auto; discriminate.
  - destruct (Nat.eqb_spec k 1) as [->|].
    { exists (true :: ts'), 0. cbn [set_bit0 tl]. cj; auto. split; auto. apply sparse_cons; auto. }
    destruct (Nat.eqb_spec k 0); [specialize (H0 ltac:(auto)); congruence|].
    destruct k as [|[|k]]; try lia. replace (S (S k) - 1) with (S k) by lia. cbn [repeat app set_bit0 tl].
    exists (repeat false k ++ true :: ts'), 1. cj; auto.
    + split; [|lia]. apply sparse_zeros, sparse_cons; auto.
    + left. split; auto. rewrite orders_zeros. replace (k + 2) with (S (S k)) by lia. reflexivity.
Qed.

Definition fin (e c k : nat) (rest : list nat) : Prop :=
  match rest with
  | r :: _ => if r =? S k then e = c else e - c <= leo (k - 1)
  | [] => e - c <= leo (k - 1)
  end.

Lemma fin_is_last : forall e it k ts, wf ts k -> fin e (S it) k (orders ts (S k)) -> it < e -> is_last (true :: ts, k) it e = true.
Proof.
  intros e it k ts [HS H0] HF He. unfold is_last. change (bit 1 (true :: ts)) with (bit 0 ts).
  destruct (bit 0 ts) eqn:E.
  - destruct (bit_orders ts (S k) E) as (rest & Eo). rewrite Eo in HF. unfold fin in HF. rewrite Nat.eqb_refl in HF. subst e.
    destruct k as [|[|k]]; [apply Nat.eqb_eq; lia| |].
    + replace (it + 1 =? S it) with true by (symmetry; apply Nat.eqb_eq; lia). reflexivity.
    + apply Nat.ltb_lt. lia.
  - assert (e - S it <= leo (k - 1)) as HF'.
    { destruct (orders ts (S k)) as [|r rest] eqn:Eo; auto. unfold fin in HF. destruct (Nat.eqb_spec r (S k)); auto. subst. lia. }
    destruct k as [|[|k]].
    + specialize (H0 eq_refl). congruence.
    + change (leo (1 - 1)) with 1 in HF'. apply orb_true_iff. destruct (Nat.eqb_spec (it + 1) e); auto. right.
      apply andb_true_iff. split; auto. apply Nat.eqb_eq. lia.
    + apply Nat.ltb_lt. lia.
Qed.

Lemma fin_next : forall e c k ts r rest, wf ts k -> orders ts (S k) = r :: rest -> fin e c k (r :: rest) -> c <= e -> leo k <= c ->
  fin e (c - leo k) r rest.
Proof.
  intros e c k ts r rest [HS H0] Ho HF Hce Hk.
  assert (e - (c - leo k) <= leo (r - 1)) as HL.
  { unfold fin in HF. destruct (Nat.eqb_spec r (S k)) as [->|Hr].
    - subst e. replace (S k - 1) with k by lia. lia.
    - destruct (orders_head _ _ _ _ Ho) as (H1 & H2 & H3). destruct k as [|k].
      { specialize (H2 (H0 eq_refl)). congruence. }
      pose proof (leo_mono (S (S k)) (r - 1) ltac:(lia)). rewrite leo_SS in H. replace (S k - 1) with k in HF by lia. lia. }
  unfold fin. destruct rest as [|s rest]; auto. destruct (Nat.eqb_spec s (S r)); auto.
  exfalso. eapply orders_sparse; eauto.
Qed.

Section Smooth.
Context {A T : Type} (comp : T -> T -> bool) (proj : A -> T).
Notation lt := (by_proj comp proj).
Implicit Types m V : mem A.
Notation LE z := (range_all (fun x => lt z x = false)).
Notation parted := (parted comp proj).

Fixpoint heap (k b : nat) m {struct k} : Prop :=
  match k with
  | S k1 => match k1 with
    | S k2 => heap k1 b m /\ heap k2 (b + leo k1) m /\ forall z, nth_error m (b + leo k - 1) = Some (Val z) -> LE z b (b + leo k) m
    | 0 => True
    end
  | 0 => True
  end.

Definition pre (k b : nat) m : Prop := forall k2, k = S (S k2) -> heap (S k2) b m /\ heap k2 (b + leo (S k2)) m.

Lemma heap_pre : forall k b m, heap k b m -> pre k b m.
Proof. intros k b m H k2 ->. destruct H as (H1 & H2 & _). auto. Qed.

Lemma heap_ext : forall k b m m', (forall i, b <= i < b + leo k -> nth_error m' i = nth_error m i) -> heap k b m -> heap k b m'.
Proof.
  induction k using leo_ind; intros b m m' HE H; try exact I. destruct H as (H1 & H2 & H3). pose proof (leo_SS k). pose proof (leo_pos k).
  split; [|split].
  - apply (IHk0 _ m); auto. intros i Hi. apply HE. lia.
  - apply (IHk _ m); auto. intros i Hi. apply HE. lia.
  - intros z Hz. rewrite HE in Hz by lia. eapply range_all_ext; eauto.
Qed.

Lemma pre_ext : forall k b m m', (forall i, b <= i < b + leo k - 1 -> nth_error m' i = nth_error m i) -> pre k b m -> pre k b m'.
Proof.
  intros k b m m' HE H k2 ->. destruct (H k2 eq_refl) as [H1 H2]. pose proof (leo_SS k2). pose proof (leo_pos k2).
  split; [apply (heap_ext _ _ m); [|exact H1]|apply (heap_ext _ _ m); [|exact H2]]; intros i Hi; apply HE; lia.
Qed.

Lemma heap_all : strict_weak_order lt -> forall k b m z, heap k b m -> nth_error m (b + leo k - 1) = Some (Val z) -> LE z b (b + leo k) m.
Proof.
  intros HW [|[|k]] b m z H Hz; [| |destruct H as (_ & _ & H); exact (H z Hz)]; intros i x Hi Hx; [rewrite leo_0 in *|rewrite leo_1 in *];
  replace i with (b + 1 - 1) in Hx by lia; assert (x = z) by congruence; subst; apply (lt_irrefl lt HW).
Qed.

Lemma heap_intro : forall k b m, pre k b m -> (forall z, nth_error m (b + leo k - 1) = Some (Val z) -> LE z b (b + leo k) m) -> heap k b m.
Proof. intros [|[|k]] b m HP H; try exact I. destruct (HP k eq_refl). split; auto. Qed.

(** A value which is not less than the root and its children is not less than the elements of the tree. *)
Lemma pre_all : strict_weak_order lt -> forall k b m y, full b (b + leo k) m -> pre k b m ->
  (forall z, nth_error m (b + leo k - 1) = Some (Val z) -> lt y z = false) ->
  (forall k2 x, k = S (S k2) -> nth_error m (b + leo (S k2) - 1) = Some (Val x) -> lt y x = false) ->
  (forall k2 x, k = S (S k2) -> nth_error m (b + leo (S k2) + leo k2 - 1) = Some (Val x) -> lt y x = false) -> LE y b (b + leo k) m.
Proof.
  intros HW k b m y Hf HP H0 H1 H2 i x Hi Hx. destruct (Nat.eq_dec i (b + leo k - 1)) as [->|Hn]; [auto|].
  destruct k as [|[|k]]; [rewrite leo_0 in *; lia|rewrite leo_1 in *; lia|]. destruct (HP k eq_refl) as [P1 P2].
  pose proof (leo_SS k). pose proof (leo_pos k). pose proof (leo_pos (S k)). destruct (Nat.lt_ge_cases i (b + leo (S k))).
  - rdv Hf (b + leo (S k) - 1) w Hw. apply (le_trans lt HW) with w; [|apply (H1 k w); auto]. apply (heap_all HW _ _ _ _ P1 Hw i x); [lia|exact Hx].
  - rdv Hf (b + leo (S k) + leo k - 1) w Hw. apply (le_trans lt HW) with w; [|apply (H2 k w); auto]. apply (heap_all HW _ _ _ _ P2 Hw i x); [lia|exact Hx].
Qed.

Lemma rebalance_wp : forall k b m, full b (b + leo k) m ->
  wp (rebalance_single_heap comp proj (b + leo k - 1) k) (fun _ m' => pm b (b + leo k) m m' /\
    (strict_weak_order lt -> pre k b m -> heap k b m')) m.
Proof.
  intros k b m Hf. unfold rebalance_single_heap. assert (k < S k) as Hfu by lia. revert Hfu. generalize (S k) as fuel.
  revert b m Hf. induction k using leo_ind; intros b m Hf fuel Hfu.
  1, 2: destruct fuel as [|fuel]; [lia|]; cbn [loop]; apply wp_bind, wp_ret, wp_ret; split; [apply pm_refl|intros; exact I].
  destruct fuel as [|fuel]; [lia|]. cbn [loop]. apply wp_bind. destruct (Nat.ltb_spec 1 (S (S k))); [|lia]. cbv zeta.
  rewrite first_child_eq, second_child_eq. pose proof (leo_SS k) as HL. pose proof (leo_pos k) as Hp. pose proof (leo_pos (S k)) as Hp1.
  rdv Hf (b + leo (S (S k)) - 1) z Hz. rdv Hf (b + leo (S k) - 1) x1 Hx1. rdv Hf (b + leo (S k) + leo k - 1) x2 Hx2.
  apply wp_bind. eapply wp_less_at; eauto. cbv beta.
  assert (exists kc bc xm, (if lt x1 x2 then (b + leo (S k) + leo k - 1, S (S k) - 2) else (b + leo (S k) - 1, S (S k) - 1)) = (bc + leo kc - 1, kc) /\
    (bc = b /\ kc = S k \/ bc = b + leo (S k) /\ kc = k) /\ nth_error m (bc + leo kc - 1) = Some (Val xm) /\
    (strict_weak_order lt -> lt xm x1 = false /\ lt xm x2 = false)) as (kc & bc & xm & -> & Hc & Hxm & HX).
  { destruct (lt x1 x2) eqn:E.
    - exists k, (b + leo (S k)), x2. replace (S (S k) - 2) with k by lia. cj; auto. intros HW. split; [now apply (lt_asym lt HW)|apply (lt_irrefl lt HW)].
    - exists (S k), b, x1. replace (S (S k) - 1) with (S k) by lia. cj; auto. intros HW. split; auto. apply (lt_irrefl lt HW). }
  assert (b <= bc /\ bc + leo kc < b + leo (S (S k)) /\ 1 <= leo kc) as (Hb1 & Hb2 & Hb3) by (destruct Hc as [[-> ->]|[-> ->]]; lia).
  apply wp_bind. eapply wp_less_at; eauto. destruct (lt z xm) eqn:Ez.
  - apply wp_bind. eapply wp_swap_pm with (f := b) (l := b + leo (S (S k))); eauto; try lia. intros m1 HP1 HS1.
    assert (full b (b + leo (S (S k))) m1) as Hf1 by (eapply pm_full; eauto).
    apply wp_ret. eapply wp_mono.
    { assert (full bc (bc + leo kc) m1) as Hfc by (eapply full_sub; eauto; lia).
      destruct Hc as [[-> ->]|[-> ->]]; [apply IHk0|apply IHk]; auto; lia. }
    intros u m2 [HP2 HI]. assert (pm b (b + leo (S (S k))) m1 m2) as HP2' by (eapply pm_widen; eauto; lia).
    split. { eapply pm_trans; eauto. }
    intros HW HPre. destruct (HX HW) as [E1 E2]. apply (lt_asym lt HW) in Ez. pose proof (HPre k eq_refl) as [Q1 Q2].
    assert (LE xm b (b + leo (S (S k))) m) as HLE.
    { apply pre_all; auto; intros; repeat match goal with H : S (S _) = S (S _) |- _ => injection H as <- end; congruence. }
    assert (heap kc bc m2) as Hheap.
    { apply HI; auto. apply (pre_ext _ _ m). { intros i Hi. rewrite HS1, tr_o by lia. auto. }
      apply heap_pre. destruct Hc as [[-> ->]|[-> ->]]; auto. }
    apply heap_intro.
    + intros k2 [= <-]. destruct Hc as [[-> ->]|[-> ->]]; split; auto.
      * apply (heap_ext _ _ m); auto. intros i Hi. rewrite (pm_out _ _ _ _ _ HP2) by lia. rewrite HS1, tr_o by lia. auto.
      * apply (heap_ext _ _ m); auto. intros i Hi. rewrite (pm_out _ _ _ _ _ HP2) by lia. rewrite HS1, tr_o by lia. auto.
    + intros y Hy. rewrite (pm_out _ _ _ _ _ HP2) in Hy by lia. rewrite HS1, tr_l in Hy. assert (y = xm) by congruence. subst y.
      eapply pm_range_all; [exact (pm_trans _ _ _ _ _ HP1 HP2')| |exact HLE]. destruct Hf. lia.
  - apply wp_ret, wp_ret. split; [apply pm_refl|]. intros HW HPre. apply heap_intro; auto. intros y Hy. assert (y = z) by congruence. subst y.
    destruct (HX HW) as [E1 E2].
    apply pre_all; auto; intros; repeat match goal with H : S (S _) = S (S _) |- _ => injection H as <- end.
    + assert (z0 = z) by congruence. subst. apply (lt_irrefl lt HW).
    + apply (le_trans lt HW) with xm; auto. congruence.
    + apply (le_trans lt HW) with xm; auto. congruence.
Qed.

Fixpoint heaps (c : nat) (os : list nat) m : Prop :=
  match os with
  | [] => True
  | k :: rest => heap k (c - leo k) m /\ heaps (c - leo k) rest m
  end.

(** The root of every tree is not less than the elements at its left. *)
Fixpoint forest (f c : nat) (os : list nat) m : Prop :=
  match os with
  | [] => True
  | k :: rest => heap k (c - leo k) m /\ (forall z, nth_error m (c - 1) = Some (Val z) -> LE z f c m) /\ forest f (c - leo k) rest m
  end.

Fixpoint keep (f c : nat) (os : list nat) m m' : Prop :=
  match os with
  | [] => True
  | k :: rest => (forest f c os m -> forest f c os m') /\ keep f (c - leo k) rest m m'
  end.

Fixpoint fins (f e c : nat) (os : list nat) m : Prop :=
  match os with
  | [] => True
  | k :: rest => (fin e c k rest -> forest f c os m) /\ fins f e (c - leo k) rest m
  end.

Lemma heaps_ext : forall os f c m m', chain f c os -> (forall i, f <= i < c -> nth_error m' i = nth_error m i) -> heaps c os m -> heaps c os m'.
Proof.
  induction os as [|k os IH]; intros f c m m' HC HE H; [exact I|]. destruct HC as [HC1 HC2]. destruct H as [H1 H2].
  pose proof (chain_le _ _ _ HC2) as [Hle _]. split.
  - apply (heap_ext _ _ m); auto. intros i Hi. apply HE. lia.
  - apply (IH f _ m); auto. intros i Hi. apply HE. lia.
Qed.

Lemma forest_ext : forall os f c m m', chain f c os -> (forall i, f <= i < c -> nth_error m' i = nth_error m i) -> forest f c os m -> forest f c os m'.
Proof.
  induction os as [|k os IH]; intros f c m m' HC HE H; [exact I|]. destruct HC as [HC1 HC2]. destruct H as (H1 & H2 & H3).
  pose proof (chain_le _ _ _ HC2) as [Hle _]. pose proof (leo_pos k). split; [|split].
  - apply (heap_ext _ _ m); auto. intros i Hi. apply HE. lia.
  - intros z Hz. rewrite HE in Hz by lia. eapply range_all_ext; [|apply H2; exact Hz]. intros i Hi. apply HE. lia.
  - apply (IH f _ m); auto. intros i Hi. apply HE. lia.
Qed.

Lemma forest_heaps : forall os f c m, forest f c os m -> heaps c os m.
Proof. induction os; intros f c m H; [exact I|]. destruct H as (H1 & H2 & H3). split; eauto. Qed.

Lemma keep_ext : forall os f c m m1 m', chain f c os -> (forall i, f <= i < c -> nth_error m1 i = nth_error m i) -> keep f c os m1 m' -> keep f c os m m'.
Proof.
  induction os as [|k os IH]; intros f c m m1 m' HC HE H; [exact I|]. pose proof HC as [HC1 HC2]. destruct H as [H1 H2].
  pose proof (chain_le _ _ _ HC2) as [Hle _]. split.
  - intros HF. apply H1. apply (forest_ext _ _ _ m); auto.
  - apply (IH f _ m m1); auto. intros i Hi. apply HE. lia.
Qed.

Lemma keep_refl : forall os f c m, keep f c os m m.
Proof. induction os; intros; [exact I|]. split; auto. Qed.

Lemma keep_same : forall os f c m m', chain f c os -> (forall i, f <= i < c -> nth_error m' i = nth_error m i) -> keep f c os m m'.
Proof. intros. eapply keep_ext; eauto. apply keep_refl. Qed.

Lemma fins_keep : forall os f e c m m', keep f c os m m' -> fins f e c os m -> fins f e c os m'.
Proof. induction os; intros f e c m m' HK H; [exact I|]. destruct HK as [K1 K2], H as [H1 H2]. split; eauto. Qed.

Lemma wp_unbind : forall X Y (c : M A X) (k : X -> M A Y) (Q : Y -> mem A -> Prop) m,
  wp (bind c k) Q m -> wp c (fun x m' => wp (k x) Q m') m.
Proof. intros. unfold wp, bind in *. destruct (c m); auto. Qed.

(** The greatest of the root and its children. *)
Lemma to_compare_wp : forall k b m (Q : nat -> mem A -> Prop), full b (b + leo k) m ->
  (forall tc y, b <= tc < b + leo k -> nth_error m tc = Some (Val y) ->
     (strict_weak_order lt -> pre k b m -> LE y b (b + leo k) m) -> Q tc m) ->
  wp (if 1 <? k then
        let* large_child := larger_child comp proj (b + leo k - 1) k in
        let* c := less_at comp proj (b + leo k - 1) large_child in
        ret (if (c : bool) then large_child else b + leo k - 1)
      else ret (b + leo k - 1)) Q m.
Proof.
  intros k b m Q Hf HQ. pose proof (leo_pos k) as Hk. rdv Hf (b + leo k - 1) z Hz. destruct (Nat.ltb_spec 1 k).
  - destruct k as [|[|k]]; try lia. unfold larger_child. rewrite first_child_eq, second_child_eq.
    pose proof (leo_SS k) as HL. pose proof (leo_pos k) as Hp. pose proof (leo_pos (S k)) as Hp1.
    rdv Hf (b + leo (S k) - 1) x1 Hx1. rdv Hf (b + leo (S k) + leo k - 1) x2 Hx2.
    apply wp_bind, wp_bind. eapply wp_less_at; eauto. apply wp_ret. apply wp_bind.
    assert (forall tc y, b <= tc < b + leo (S (S k)) -> nth_error m tc = Some (Val y) ->
      (strict_weak_order lt -> lt y z = false /\ lt y x1 = false /\ lt y x2 = false) -> Q tc m) as HQ'.
    { intros tc y Htc Hy HY. apply (HQ tc y Htc Hy). intros HW HP. destruct (HY HW) as (E1 & E2 & E3).
      apply pre_all; auto; intros; repeat match goal with H : S (S _) = S (S _) |- _ => injection H as <- end; congruence. }
    clear HQ.
    destruct (lt x1 x2) eqn:E12; (eapply wp_less_at; [eassumption..|]); [destruct (lt z x2) eqn:Ez|destruct (lt z x1) eqn:Ez]; apply wp_ret.
    + apply (HQ' _ x2); auto; try lia. intros HW. cj; [now apply (lt_asym lt HW)..|apply (lt_irrefl lt HW)].
    + apply (HQ' _ z); auto; try lia. intros HW. cj; auto; [apply (lt_irrefl lt HW)|]. apply (le_trans lt HW) with x2; auto. now apply (lt_asym lt HW).
    + apply (HQ' _ x1); auto; try lia. intros HW. cj; auto; [now apply (lt_asym lt HW)|apply (lt_irrefl lt HW)].
    + apply (HQ' _ z); auto; try lia. intros HW. cj; auto; [apply (lt_irrefl lt HW)|]. apply (le_trans lt HW) with x1; auto.
  - apply wp_ret. apply (HQ _ z); auto; try lia. intros HW HP. apply pre_all; auto; intros; try lia.
    assert (z0 = z) by congruence. subst. apply (lt_irrefl lt HW).
Qed.

Lemma pm_sym : forall f l m m', pm f l m m' -> pm f l m' m.
Proof. intros f l m m' [[H1 H2] H3]. split; [split|]; [auto| |now symmetry]. intros k Hk. symmetry. auto. Qed.

Lemma rectify_wp : forall ts k f c m, chain f c (k :: orders ts (S k)) -> full f c m ->
  wp (leonardo_heap_rectify comp proj f c (true :: ts, k)) (fun _ m' => pm f c m m' /\
    (strict_weak_order lt -> pre k (c - leo k) m -> heaps (c - leo k) (orders ts (S k)) m ->
       heaps c (k :: orders ts (S k)) m' /\ keep f (c - leo k) (orders ts (S k)) m m' /\
       (forest f (c - leo k) (orders ts (S k)) m -> forest f c (k :: orders ts (S k)) m'))) m.
Proof.
  intros ts k f c m HC Hf. unfold leonardo_heap_rectify. cbn [fst snd].
  assert (length ts < S (length (true :: ts))) as Hfu by (simpl; lia). revert Hfu. generalize (S (length (true :: ts))) as fuel.
  intros fuel. revert ts k c m HC Hf. induction fuel as [|fuel IH]; intros ts k c m HC Hf Hfu; [lia|].
  pose proof HC as [HC1 HC2]. pose proof (chain_le _ _ _ HC2) as [Hfb _]. pose proof (leo_pos k) as Hk.
  set (b := c - leo k) in *. assert (c = b + leo k) as Ec by (unfold b; lia). clearbody b. subst c.
  set (rest := orders ts (S k)) in *.
  cbn [loop]. apply wp_bind, wp_bind.
  assert (full b (b + leo k) m) as Hfb' by (eapply full_sub; eauto; lia).
  destruct (Nat.eqb_spec (b + leo k - 1 - f) (leo k - 1)) as [E|E].
  - assert (b = f) by lia. subst b. apply chain_nil in HC2. rewrite HC2. apply wp_ret, wp_ret.
    eapply wp_mono; [apply rebalance_wp; auto|]. intros u m' [HP HI]. split; auto. intros HW HPre _. simpl.
    specialize (HI HW HPre). replace (f + leo k - leo k) with f by lia. cj; auto. intros _. cj; auto. intros z Hz. apply (heap_all HW); auto.
  - assert (rest <> []) as Hr. { intros Hr. rewrite Hr in HC2. simpl in HC2. lia. }
    assert (f < b) as Hfb2. { apply chain_le in HC2 as [_ HC2]. auto. }
    apply wp_bind. apply to_compare_wp; auto. intros tc y Htc Hy HY.
    replace (b + leo k - 1 - leo k) with (b - 1) by lia. cbv zeta.
    rdv Hf (b - 1) p Hp. apply wp_bind. eapply wp_less_at; eauto. destruct (lt y p) eqn:Eyp.
    + apply wp_bind. eapply wp_swap_pm with (f := f) (l := b + leo k); eauto; try lia. intros m1 HP1 HS1.
      assert (full f (b + leo k) m1) as Hf1 by (eapply pm_full; eauto).
      cbn [tl]. assert (any ts = true) as ->. { destruct (any ts) eqn:Ea; auto. exfalso. apply Hr. apply any_orders. auto. }
      destruct (scan_spec ts (S k) Hr) as (ts1 & k1 & -> & Eo & HL1). apply wp_ret.
      fold rest in Eo. set (rest1 := orders ts1 (S k1)) in *. rewrite Eo in HC2, Hr |- *.
      apply wp_unbind. eapply wp_mono. { apply IH; [exact HC2|eapply full_sub; eauto; lia|lia]. }
      intros u m2 [HP2 HI]. assert (pm f (b + leo k) m1 m2) as HP2' by (eapply pm_widen; eauto; lia).
      pose proof (pm_trans _ _ _ _ _ HP1 HP2') as HPm. split; auto.
      intros HW HPre HH. fold rest1 in HI. pose proof HC2 as [HC3 HC4]. pose proof (chain_le _ _ _ HC4) as [Hle1 _]. pose proof (leo_pos k1) as Hk1.
      destruct HH as [HH1 HH2].
      assert (forall i, f <= i < b - leo k1 -> nth_error m1 i = nth_error m i) as HE1 by (intros i Hi; rewrite HS1, tr_o by lia; auto).
      destruct HI as (G1 & G2 & G3); auto.
      { apply (pre_ext _ _ m); [|now apply heap_pre]. intros i Hi. rewrite HS1, tr_o by lia. auto. }
      { apply (heaps_ext _ f _ m); auto. }
      assert (LE p b (b + leo k) m) as HLEp. { intros i x Hi Hx. apply (le_trans lt HW) with y; [|now apply (lt_asym lt HW)]. apply (HY HW HPre i x); auto. }
      assert (forall i, b <= i < b + leo k - 1 -> nth_error m2 i = nth_error m i) as HE2.
      { intros i Hi. rewrite (pm_out _ _ _ _ _ HP2) by lia. rewrite HS1, tr_o by lia. auto. }
      assert (nth_error m2 (b + leo k - 1) = Some (Val p)) as Hroot.
      { rewrite (pm_out _ _ _ _ _ HP2) by lia. rewrite HS1, tr_l. auto. }
      assert (heap k b m2) as Hh.
      { apply heap_intro; [apply (pre_ext _ _ m); auto|]. intros z Hz. assert (z = p) by congruence. subst z.
        intros i x Hi Hx. destruct (Nat.eq_dec i (b + leo k - 1)) as [->|].
        - assert (x = p) by congruence. subst. apply (lt_irrefl lt HW).
        - rewrite HE2 in Hx by lia. apply (HLEp i x); auto. }
      replace (b + leo k - leo k) with b in * by lia. cj.
      * cbn [heaps]. replace (b + leo k - leo k) with b by lia. auto.
      * cbn [keep]. split.
        { intros (F1 & F2 & F3). apply G3. apply (forest_ext _ _ _ m); auto. }
        { apply (keep_ext _ _ _ m m1); auto. }
      * intros HF. pose proof HF as (F1 & F2 & F3). cbn [forest]. replace (b + leo k - leo k) with b by lia. split; [auto|split].
        { intros z Hz. assert (z = p) by congruence. subst z. eapply pm_range_all; [exact HPm|destruct Hf; lia|].
          intros i x Hi Hx. destruct (Nat.lt_ge_cases i b); [apply (F2 p Hp i x); auto; lia|apply (HLEp i x); auto; lia]. }
        apply G3. apply (forest_ext _ _ _ m); auto.
    + apply wp_ret, wp_ret. eapply wp_mono; [apply rebalance_wp; auto|]. intros u m' [HP HI].
      assert (pm f (b + leo k) m m') as HP' by (eapply pm_widen; eauto; lia). split; auto.
      intros HW HPre HH. specialize (HI HW HPre). replace (b + leo k - leo k) with b in * by lia.
      assert (forall i, f <= i < b -> nth_error m' i = nth_error m i) as HE by (intros i Hi; apply (pm_out _ _ _ _ _ HP); lia).
      cj.
      * cbn [heaps]. replace (b + leo k - leo k) with b by lia. split; auto. apply (heaps_ext _ f _ m); auto.
      * apply keep_same; auto.
      * intros HF. cbn [forest]. replace (b + leo k - leo k) with b by lia. split; [auto|split; [|apply (forest_ext _ _ _ m); auto]].
        intros z Hz. assert (LE z b (b + leo k) m') as HZ by (apply (heap_all HW); auto).
        assert (LE z b (b + leo k) m) as HZ'. { eapply pm_range_all; [apply pm_sym; exact HP| |exact HZ]. rewrite (pm_length _ _ _ _ HP). destruct Hf; lia. }
        assert (lt z y = false) as Ezy by (apply (HZ' tc y); auto).
        assert (lt z p = false) as Ezp by (apply (le_trans lt HW) with y; auto).
        intros i x Hi Hx. destruct (Nat.lt_ge_cases i b); [|apply (HZ i x); auto; lia].
        rewrite HE in Hx by lia. apply (le_trans lt HW) with p; auto. destruct rest as [|r rest']; [congruence|]. destruct HF as (_ & F2 & _).
        apply (F2 p Hp i x); auto; lia.
Qed.

(** The heap at [it], being built for the range [f, e). *)
Definition building f e it (sh : shape) m : Prop :=
  wfs sh /\ chain f it (orders (fst sh) (snd sh)) /\ (strict_weak_order lt -> heaps it (orders (fst sh) (snd sh)) m /\ fins f e it (orders (fst sh) (snd sh)) m).

Lemma heap_add_wp : forall f e it sh m, f <= it < e -> full f e m -> building f e it sh m ->
  wp (leonardo_heap_add comp proj f it e sh) (fun sh' m' => pm f e m m' /\ building f e (S it) sh' m') m.
Proof.
  intros f e it sh m Hit Hf (HWF & HC & HI). unfold leonardo_heap_add.
  destruct (shape_add_spec sh HWF) as (ts1 & k1 & -> & HWF1 & HO). cbn [snd].
  set (rest := orders ts1 (S k1)) in *. set (os := orders (fst sh) (snd sh)) in *.
  assert (chain f (S it) (k1 :: rest) /\ (strict_weak_order lt ->
    pre k1 (S it - leo k1) m /\ heaps (S it - leo k1) rest m /\ fins f e (S it - leo k1) rest m)) as [HC1 HI1].
  { destruct HO as [[Hk1 E]|(k0 & -> & E)].
    - assert (leo k1 = 1) as Hl by (destruct k1 as [|[|k1]]; auto; lia). rewrite E. cbn [chain]. rewrite Hl. replace (S it - 1) with it by lia.
      cj; auto; [lia|]. intros HW. destruct (HI HW). cj; auto. intros k2 ->. lia.
    - rewrite E in HC, HI. cbn [chain] in HC |- *. destruct HC as (C1 & C2 & C3).
      pose proof (leo_SS k0). pose proof (leo_pos k0). pose proof (leo_pos (S k0)). replace (S it - leo (S (S k0))) with (it - leo k0 - leo (S k0)) by lia. cj; auto; [lia|].
      intros HW. destruct (HI HW) as [(G1 & G2 & G3) (F1 & F2 & F3)]. cj; auto. intros k2 [= <-]. split; auto.
      replace (it - leo k0 - leo (S k0) + leo (S k0)) with (it - leo k0) by lia. auto. }
  pose proof HC1 as [C1 C2]. pose proof (chain_le _ _ _ C2) as [Hle _]. pose proof (leo_pos k1) as Hk1.
  assert (wfs (true :: ts1, k1)) as HWF2. { right. exists ts1. auto. }
  destruct (is_last (true :: ts1, k1) it e) eqn:El; cbn [negb]; cbv iota.
  - apply wp_bind. replace (it + 1) with (S it) by lia. eapply wp_mono.
    { apply rectify_wp; [exact HC1|]. eapply full_sub; eauto; lia. }
    intros u m1 [HP HR]. apply wp_ret. split. { eapply pm_widen; eauto; lia. }
    split; [|split]; auto. intros HW. destruct (HI1 HW) as (P1 & P2 & P3). destruct (HR HW P1 P2) as (R1 & R2 & R3). fold rest in R1, R2, R3.
    cbn [fst snd orders]. fold rest. split; auto. cbn [fins]. split; [|eapply fins_keep; eauto].
    intros HF. apply R3. destruct rest as [|r rest'] eqn:Er; [exact I|]. destruct P3 as [P3 _]. apply P3.
    unfold rest in Er. eapply fin_next; eauto. lia.
  - apply wp_bind. set (b := S it - leo k1) in *. assert (it = b + leo k1 - 1) as Eit by (unfold b; lia).
    rewrite Eit at 1. eapply wp_mono. { apply rebalance_wp. eapply full_sub; eauto; lia. }
    intros u m1 [HP HR]. apply wp_ret. split. { eapply pm_widen; eauto; lia. }
    split; [|split]; auto. intros HW. destruct (HI1 HW) as (P1 & P2 & P3). specialize (HR HW P1).
    cbn [fst snd orders heaps fins]. fold rest. fold b.
    assert (forall i, f <= i < b -> nth_error m1 i = nth_error m i) as HE by (intros i Hi; apply (pm_out _ _ _ _ _ HP); lia).
    cj; auto.
    + apply (heaps_ext _ f _ m); auto.
    + intros HF. apply fin_is_last in HF; auto; [congruence|lia].
    + apply (fins_keep _ _ _ _ m); auto. apply keep_same; auto.
Qed.

Definition headed (sh : shape) : Prop := orders (fst sh) (snd sh) = [] \/ exists ts, fst sh = true :: ts.

Lemma heap_remove_wp : forall f c sh m, f < c -> full f c m -> headed sh -> chain f c (orders (fst sh) (snd sh)) ->
  wp (leonardo_heap_remove comp proj f c sh) (fun sh' m' => pm f (c - 1) m m' /\ headed sh' /\ chain f (c - 1) (orders (fst sh') (snd sh')) /\ (strict_weak_order lt -> forest f c (orders (fst sh) (snd sh)) m -> forest f (c - 1) (orders (fst sh') (snd sh')) m')) m.
Proof.
  intros f c [ts k] m Hfc Hf HH HC. cbn [fst snd] in *. destruct HH as [HH|(ts' & E)].
  { cbn [fst snd] in HH. rewrite HH in HC. simpl in HC. lia. }
  cbn [fst] in E. subst ts. cbn [orders] in *. set (rest := orders ts' (S k)) in *. pose proof HC as [C1 C2].
  pose proof (leo_pos k) as Hk. pose proof (chain_le _ _ _ C2) as [Hle _].
  unfold leonardo_heap_remove. cbn [snd]. unfold shape_remove. destruct (Nat.leb_spec k 1) as [Hk1|Hk1].
  - assert (leo k = 1) as Hl by (destruct k as [|[|k]]; auto; lia). rewrite Hl in *. cbn [tl]. apply wp_ret. split; [apply pm_refl|].
    assert (headed (scan ts' (S k)) /\ orders (fst (scan ts' (S k))) (snd (scan ts' (S k))) = rest) as [HH HO].
    { destruct rest as [|r rest'] eqn:Er; unfold rest in Er.
      - pose proof (scan_nil _ _ Er) as HN. split; auto. left. auto.
      - destruct (scan_spec ts' (S k)) as (ts1 & k1 & -> & Eo & _); [congruence|]. rewrite <- Er, Eo. split; auto. right. exists ts1. auto. }
    rewrite HO. cj; auto. intros HW (F1 & F2 & F3). rewrite Hl in F3. auto.
  - destruct k as [|[|k]]; try lia. cbn [fst snd tl]. replace (S (S k) - 2) with k by lia. cbn [tl].
    pose proof (leo_SS k) as HL. pose proof (leo_pos k) as Hp. pose proof (leo_pos (S k)) as Hp1.
    set (b := c - leo (S (S k))) in *. assert (c = b + leo (S (S k))) as Ec by (unfold b; lia). clearbody b.
    replace (c - 1) with (b + leo (S (S k)) - 1) by lia. rewrite first_child_eq, second_child_eq.
    replace (b + leo (S k) - 1 + 1) with (b + leo (S k)) by lia. replace (b + leo (S k) + leo k - 1 + 1) with (b + leo (S k) + leo k) by lia.
    replace (b + leo (S (S k)) - 1) with (b + leo (S k) + leo k) by lia.
    assert (orders (false :: ts') (S (S k)) = rest) as Er by reflexivity.
    assert (chain f (b + leo (S k)) (S k :: orders (false :: ts') (S (S k)))) as HC1.
    { rewrite Er. cbn [chain]. replace (b + leo (S k) - leo (S k)) with b by lia. split; [lia|auto]. }
    assert (chain f (b + leo (S k) + leo k) (k :: orders (true :: false :: ts') (S k))) as HC2.
    { cbn [chain orders]. fold rest. replace (b + leo (S k) + leo k - leo k) with (b + leo (S k)) by lia. split; [lia|]. exact HC1. }
    apply wp_bind. eapply wp_mono. { apply rectify_wp; [exact HC1|eapply full_sub; eauto; lia]. }
    intros u1 m1 [HP1 HR1]. cbv beta. rewrite Er in HR1. replace (b + leo (S k) - leo (S k)) with b in HR1 by lia.
    assert (pm f (b + leo (S k) + leo k) m m1) as HP1' by (eapply pm_widen; eauto; lia).
    apply wp_bind. eapply wp_mono.
    { apply rectify_wp; [exact HC2|eapply pm_full; [exact HP1'|eapply full_sub; eauto; lia]]. }
    intros u2 m2 [HP2 HR2]. apply wp_ret. cj.
    + eapply pm_trans; eauto.
    + right. exists (true :: false :: ts'). auto.
    + exact HC2.
    + intros HW (F1 & F2 & F3). replace (c - leo (S (S k))) with b in F1, F3 by lia. destruct F1 as (G1 & G2 & _).
      destruct HR1 as (_ & _ & R1); auto. { now apply heap_pre. } { eapply forest_heaps; eauto. }
      specialize (R1 F3). replace (b + leo (S k) + leo k - leo k) with (b + leo (S k)) in HR2 by lia.
      change (orders (true :: false :: ts') (S k)) with (S k :: rest) in HR2.
      destruct HR2 as (_ & _ & R2); auto.
      { apply heap_pre, (heap_ext _ _ m); auto. intros i Hi. apply (pm_out _ _ _ _ _ HP1). lia. }
      { eapply forest_heaps; eauto. }
Qed.

Lemma smooth_sorter_wp : sorts_index comp proj (smooth_sorter comp proj).
Proof.
  intros f e m Hfe Hf. unfold smooth_sorter, smoothsort. destruct (Nat.ltb_spec (e - f) 2) as [Hn|Hn].
  { apply wp_ret. split; [apply pm_refl|]. intros _ i j x y. lia. }
  apply wp_bind. apply wp_mono with (Q := fun sh m1 => pm f e m m1 /\ building f e e sh m1).
  { apply wp_loop' with (I := fun '(it, sh) m1 => pm f e m m1 /\ f <= it <= e /\ building f e it sh m1) (mu := fun '(it, sh) => e - it).
    - split; [apply pm_refl|]. split; [lia|]. split; [left; auto|]. split; [reflexivity|]. intros _. simpl. auto.
    - lia.
    - intros [it sh] m1 (HP & Hit & HB). destruct (Nat.eqb_spec it e) as [->|].
      + apply wp_ret. auto.
      + apply wp_bind. eapply wp_mono. { apply heap_add_wp; [|eapply pm_full; eauto|exact HB]. lia. }
        intros sh' m2 [HP2 HB2]. apply wp_ret. split; [|lia]. cj; auto; try lia. eapply pm_trans; eauto. }
  intros sh m1 (HP1 & HWF & HC & HI). cbv beta.
  apply wp_loop' with (I := fun '(c, sh) m2 => pm f e m m2 /\ f <= c <= e /\ headed sh /\ chain f c (orders (fst sh) (snd sh)) /\ (strict_weak_order lt -> forest f c (orders (fst sh) (snd sh)) m2 /\ sorted_range lt c e m2 /\ parted f c e m2)) (mu := fun '(c, sh) => c - f).
  - cj; auto; try lia.
    + destruct HWF as [->|(ts & E & _)]; [left; reflexivity|right; eauto].
    + intros HW. destruct (HI HW) as [H1 H2]. cj; [|intros i j x y; lia..].
      destruct (orders (fst sh) (snd sh)) as [|k rest]; [exact I|]. destruct H2 as [H2 _]. apply H2. unfold fin. rewrite Nat.sub_diag.
      destruct rest as [|r rest]; [lia|]. destruct (r =? S k); auto. lia.
  - lia.
  - clear sh m1 HP1 HWF HC HI. intros [c sh] m1 (HP1 & Hc & HH & HC & HI). destruct (Nat.eqb_spec c f) as [->|Hcf].
    + apply wp_ret. split; auto. intros HW. apply HI; auto.
    + assert (full f e m1) as Hf1 by (eapply pm_full; eauto). apply wp_bind. eapply wp_mono.
      { apply heap_remove_wp; [|eapply full_sub; eauto|exact HH|exact HC]; lia. }
      intros sh' m2 (HP2 & HH2 & HC2 & HI2). apply wp_ret. split; [|lia].
      cj; auto; try lia. { eapply pm_trans; [exact HP1|]. eapply pm_widen; eauto; lia. }
      intros HW. destruct (HI HW) as (F1 & F2 & F3). split; auto. rdv Hf1 (c - 1) z Hz.
      assert (LE z f c m1) as HLE.
      { destruct (orders (fst sh) (snd sh)) as [|k rest]; [simpl in HC; lia|]. destruct F1 as (_ & F1 & _). auto. }
      destruct (Poplar.extract comp proj f c e m1 z) as [S1 S2]; auto; try lia. split.
      * intros i j x y Hi Hij Hj Hx Hy. rewrite (pm_out _ _ _ _ _ HP2) in Hx by lia. rewrite (pm_out _ _ _ _ _ HP2) in Hy by lia. apply (S1 i j x y); auto.
      * eapply Poplar.parted_pm; eauto. eapply full_sub; eauto; lia.
Qed.
End Smooth.
