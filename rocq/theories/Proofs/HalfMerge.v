(** The blind merge of a buffer with the range that follows the destination. *)
From Coq Require Import List Arith Lia Permutation Bool.
From Verif Require Import Spec.Order Lang.Mem Proofs.Wp Proofs.OrderLib Model.Rotate Proofs.Rotate Model.Merge Proofs.Search.
Import ListNotations.

(** The iterator obtained after [k] increments, and the cell it designates. *)
Definition pos (rev : bool) (b k : nat) : nat := if rev then b - k else b + k.
Definition adr (rev : bool) (b k : nat) : nat := if rev then b - S k else b + k.

Lemma deref_pos : forall rev b k, it_deref rev (pos rev b k) = adr rev b k.
Proof. destruct rev; simpl; intros; lia. Qed.
Lemma next_pos : forall rev b k, it_next rev (pos rev b k) = pos rev b (S k).
Proof. destruct rev; simpl; intros; lia. Qed.

Section HM.
Context {A T : Type} (comp : T -> T -> bool) (proj : A -> T).
Notation lt := (by_proj comp proj).
Variables (rv : bool) (B1 B2 BR : nat) (l1 l2 : list A) (m0 : mem A).
Notation n1 := (length l1).
Notation n2 := (length l2).
Notation a1 := (adr rv B1).
Notation a2 := (adr rv B2).
Notation ar := (adr rv BR).
(** Reverse iterators do not run below address 0. *)
Hypothesis Hb : rv = true -> n1 <= B1 /\ n2 <= B2 /\ n1 + n2 <= BR.
Hypothesis H2r : B2 = pos rv BR n1.
Hypothesis Hdis : forall i j, i < n1 -> j < n1 + n2 -> a1 i <> ar j.

Lemma a2_ar : forall t, t < n2 -> a2 t = ar (n1 + t).
Proof. intros t Ht. subst B2. unfold adr, pos. destruct rv; lia. Qed.
Lemma ar_inj : forall i j, i < n1 + n2 -> j < n1 + n2 -> ar i = ar j -> i = j.
Proof. intros i j Hi Hj E. unfold adr in E. destruct rv; [|lia]. specialize (Hb eq_refl). lia. Qed.
Lemma a1_inj : forall i j, i < n1 -> j < n1 -> a1 i = a1 j -> i = j.
Proof. intros i j Hi Hj E. unfold adr in E. destruct rv; [|lia]. specialize (Hb eq_refl). lia. Qed.
Lemma pos1_eq : forall i, i <= n1 -> (pos rv B1 i =? pos rv B1 n1) = (i =? n1).
Proof.
  intros i Hi. destruct (Nat.eqb_spec i n1) as [->|E]. { apply Nat.eqb_refl. }
  apply Nat.eqb_neq. unfold pos. destruct rv; [|lia]. specialize (Hb eq_refl). lia.
Qed.
Lemma pos2_eq : forall i, i <= n2 -> (pos rv B2 i =? pos rv B2 n2) = (i =? n2).
Proof.
  intros i Hi. destruct (Nat.eqb_spec i n2) as [->|E]. { apply Nat.eqb_refl. }
  apply Nat.eqb_neq. unfold pos. destruct rv; [|lia]. specialize (Hb eq_refl). lia.
Qed.

Definition live_at (m : mem A) (k : nat) : Prop := exists c, nth_error m k = Some c /\ c <> Raw.

Record HM (i j : nat) (m : mem A) : Prop := {
  hm_i : i <= n1; hm_j : j <= n2;
  hm_len : length m = length m0;
  hm_out : exists out, length out = i + j /\
     out ++ merge lt (skipn i l1) (skipn j l2) = merge lt l1 l2 /\
     (forall t x, nth_error out t = Some x -> nth_error m (ar t) = Some (Val x));
  hm_1 : forall t x, i <= t -> nth_error l1 t = Some x -> nth_error m (a1 t) = Some (Val x);
  hm_2 : forall t x, j <= t -> nth_error l2 t = Some x -> nth_error m (a2 t) = Some (Val x);
  hm_lr : forall t, t < n1 + n2 -> live_at m (ar t);
  hm_l1 : forall t, t < n1 -> live_at m (a1 t);
  hm_same : forall k, (forall t, t < n1 -> k <> a1 t) -> (forall t, t < n1 + n2 -> k <> ar t) ->
     nth_error m k = nth_error m0 k
}.

Lemma live_upd : forall m k i c, c <> Raw -> live_at m k -> live_at (upd i c m) k.
Proof.
  intros m k i c Hc (c' & H1 & H2). unfold live_at. rewrite nth_upd.
  destruct (Nat.eqb_spec i k).
  - subst. apply nth_lt in H1. apply Nat.ltb_lt in H1. rewrite H1. eauto.
  - eauto.
Qed.

Lemma skipn_nth : forall X (l : list X) i x, nth_error l i = Some x -> skipn i l = x :: skipn (S i) l.
Proof.
  induction l; intros [|i] x H; simpl in *; try discriminate.
  - now injection H as ->.
  - now apply IHl.
Qed.

Lemma wp_move_live : forall i j x (Q : unit -> mem A -> Prop) m, i <> j -> nth_error m i = Some (Val x) -> live_at m j ->
  Q tt (upd j (Val x) (upd i Moved m)) -> wp (move_to i j) Q m.
Proof.
  intros i j x Q m Hne Hi (c & Hc & HR) HQ. eapply wp_move_to; eauto.
Qed.

Lemma out_app : forall (out : list A) m x k, length out = k ->
  (forall t y, nth_error out t = Some y -> nth_error m (ar t) = Some (Val y)) ->
  nth_error m (ar k) = Some (Val x) ->
  forall t y, nth_error (out ++ [x]) t = Some y -> nth_error m (ar t) = Some (Val y).
Proof.
  intros out m x k Hk Ho Hx t y Hy. destruct (Nat.lt_ge_cases t k).
  - apply Ho. rewrite nth_error_app1 in Hy; auto; lia.
  - rewrite nth_error_app2 in Hy by lia. destruct (t - length out) eqn:E.
    + simpl in Hy. injection Hy as <-. replace t with k by lia. auto.
    + apply nth_lt in Hy. simpl in Hy. lia.
Qed.

Lemma step_2 : forall i j m x1 x2, HM i j m -> nth_error l1 i = Some x1 -> nth_error l2 j = Some x2 -> lt x2 x1 = true ->
  wp (move_to (a2 j) (ar (i + j))) (fun _ m' => HM i (S j) m') m.
Proof.
  intros i j m x1 x2 [Hi Hj HL (out & Ho1 & Ho2 & Ho3) H1 H2 HLr HL1 HS] E1 E2 Hlt.
  pose proof (nth_lt _ _ _ E1) as L1. pose proof (nth_lt _ _ _ E2) as L2.
  assert (a2 j <> ar (i + j)) as Hne.
  { rewrite a2_ar by auto. intros E. apply ar_inj in E; lia. }
  assert (nth_error m (a2 j) = Some (Val x2)) as Ex by (apply H2; auto).
  apply wp_move_live with (x := x2); auto. { apply HLr. lia. }
  assert (forall k, k <> ar (i + j) -> k <> a2 j ->
    nth_error (upd (ar (i + j)) (Val x2) (upd (a2 j) Moved m)) k = nth_error m k) as HU.
  { intros. now rewrite !nth_upd_ne by auto. }
  assert (nth_error (upd (ar (i + j)) (Val x2) (upd (a2 j) Moved m)) (ar (i + j)) = Some (Val x2)) as HN.
  { apply nth_upd_eq. rewrite upd_length. destruct (HLr (i + j)) as (c & Hc & _); [lia|]. eapply nth_lt; eauto. }
  constructor; auto; try lia.
  - now rewrite !upd_length.
  - exists (out ++ [x2]). cj.
    + rewrite app_length. simpl. lia.
    + rewrite <- Ho2, <- app_assoc. f_equal. rewrite (skipn_nth _ _ _ _ E1), (skipn_nth _ _ _ _ E2).
      rewrite merge_cons, Hlt. reflexivity.
    + eapply out_app; eauto. intros t y Hy. pose proof (nth_lt _ _ _ Hy). rewrite HU; auto.
      * intros E. apply ar_inj in E; lia.
      * rewrite a2_ar by auto. intros E. apply ar_inj in E; lia.
  - intros t x Ht Hx. pose proof (nth_lt _ _ _ Hx). rewrite HU; auto.
    + apply Hdis; lia.
    + rewrite a2_ar by auto. apply Hdis; lia.
  - intros t x Ht Hx. pose proof (nth_lt _ _ _ Hx). rewrite HU; auto.
    + apply H2; auto; lia.
    + rewrite a2_ar by auto. intros E. apply ar_inj in E; lia.
    + rewrite !a2_ar by auto. intros E. apply ar_inj in E; lia.
  - intros t Ht. apply live_upd; [discriminate|]. apply live_upd; [discriminate|]. auto.
  - intros t Ht. apply live_upd; [discriminate|]. apply live_upd; [discriminate|]. auto.
  - intros k K1 K2. rewrite HU; auto. { apply K2. lia. } rewrite a2_ar by auto. apply K2. lia.
Qed.

Lemma step_1 : forall i j m x1, HM i j m -> nth_error l1 i = Some x1 ->
  (forall x2, nth_error l2 j = Some x2 -> lt x2 x1 = false) ->
  wp (move_to (a1 i) (ar (i + j))) (fun _ m' => HM (S i) j m') m.
Proof.
  intros i j m x1 [Hi Hj HL (out & Ho1 & Ho2 & Ho3) H1 H2 HLr HL1 HS] E1 Hlt.
  pose proof (nth_lt _ _ _ E1) as L1.
  assert (a1 i <> ar (i + j)) as Hne by (apply Hdis; lia).
  assert (nth_error m (a1 i) = Some (Val x1)) as Ex by (apply H1; auto).
  apply wp_move_live with (x := x1); auto. { apply HLr. lia. }
  assert (forall k, k <> ar (i + j) -> k <> a1 i ->
    nth_error (upd (ar (i + j)) (Val x1) (upd (a1 i) Moved m)) k = nth_error m k) as HU.
  { intros. now rewrite !nth_upd_ne by auto. }
  assert (nth_error (upd (ar (i + j)) (Val x1) (upd (a1 i) Moved m)) (ar (i + j)) = Some (Val x1)) as HN.
  { apply nth_upd_eq. rewrite upd_length. destruct (HLr (i + j)) as (c & Hc & _); [lia|]. eapply nth_lt; eauto. }
  constructor; auto; try lia.
  - now rewrite !upd_length.
  - exists (out ++ [x1]). cj.
    + rewrite app_length. simpl. lia.
    + rewrite <- Ho2, <- app_assoc. f_equal. rewrite (skipn_nth _ _ _ _ E1).
      destruct (nth_error l2 j) as [x2|] eqn:E2.
      * rewrite (skipn_nth _ _ _ _ E2). rewrite merge_cons, Hlt; auto.
      * apply nth_error_None in E2. rewrite (skipn_all2 l2) by lia. now rewrite !merge_nil_r.
    + eapply out_app; eauto. intros t y Hy. pose proof (nth_lt _ _ _ Hy). rewrite HU; auto.
      * intros E. apply ar_inj in E; lia.
      * apply not_eq_sym. apply Hdis; lia.
  - intros t x Ht Hx. pose proof (nth_lt _ _ _ Hx). rewrite HU; auto.
    + apply H1; auto; lia.
    + apply Hdis; lia.
    + intros E. apply a1_inj in E; lia.
  - intros t x Ht Hx. pose proof (nth_lt _ _ _ Hx). rewrite HU; auto.
    + rewrite a2_ar by auto. intros E. apply ar_inj in E; lia.
    + rewrite !a2_ar by auto. apply not_eq_sym. apply Hdis; lia.
  - intros t Ht. apply live_upd; [discriminate|]. apply live_upd; [discriminate|]. auto.
  - intros t Ht. apply live_upd; [discriminate|]. apply live_upd; [discriminate|]. auto.
  - intros k K1 K2. rewrite HU; auto. apply K2. lia.
Qed.

(** What the merge leaves. *)
Definition HM_done (m : mem A) : Prop :=
  length m = length m0 /\
  (forall t x, nth_error (merge lt l1 l2) t = Some x -> nth_error m (ar t) = Some (Val x)) /\
  (forall t, t < n1 -> live_at m (a1 t)) /\
  (forall k, (forall t, t < n1 -> k <> a1 t) -> (forall t, t < n1 + n2 -> k <> ar t) ->
     nth_error m k = nth_error m0 k).

Lemma HM_finish : forall j m, HM n1 j m -> HM_done m.
Proof.
  intros j m [Hi Hj HL (out & Ho1 & Ho2 & Ho3) H1 H2 HLr HL1 HS]. unfold HM_done. cj; auto.
  intros t x Hx. rewrite <- Ho2 in Hx. rewrite skipn_all, merge_nil_l in Hx.
  destruct (Nat.lt_ge_cases t (n1 + j)).
  - rewrite nth_error_app1 in Hx by lia. auto.
  - rewrite nth_error_app2 in Hx by lia. rewrite nth_skipn in Hx.
    pose proof (nth_lt _ _ _ Hx).
    replace t with (n1 + (j + (t - length out))) by lia. rewrite <- a2_ar by lia.
    apply H2; auto. lia.
Qed.

Lemma move_rest : forall i m n, HM i n2 m -> n1 - i <= n ->
  wp (move_range_dir rv n (pos rv B1 i) (pos rv B1 n1) (pos rv BR (i + n2))) (fun _ m' => HM_done m') m.
Proof.
  intros i m n HI Hn. unfold move_range_dir.
  apply wp_loop_k with (k := n1 - i)
    (I := fun k '(f, r) m => exists i, f = pos rv B1 i /\ r = pos rv BR (i + n2) /\ k = n1 - i /\ HM i n2 m).
  - exists i. auto.
  - lia.
  - clear i m HI Hn. intros k [f r] m (i & -> & -> & -> & HI).
    pose proof (hm_i _ _ _ HI). rewrite pos1_eq by auto.
    destruct (Nat.eqb_spec i n1) as [->|].
    + apply wp_ret. eapply HM_finish; eauto.
    + rewrite !deref_pos, !next_pos. destruct (nth_some _ l1 i) as (x & Hx); [lia|].
      apply wp_bind. eapply wp_mono. { eapply step_1; eauto. intros x2 E. apply nth_lt in E. lia. }
      intros ? m' HI'. apply wp_ret. exists (n1 - S i). split; [lia|]. exists (S i). auto.
Qed.

Lemma dist1 : forall i, i <= n1 -> it_distance rv (pos rv B1 i) (pos rv B1 n1) = n1 - i.
Proof. intros i Hi. unfold it_distance, pos. destruct rv; [specialize (Hb eq_refl)|]; lia. Qed.
Lemma dist2 : forall j, j <= n2 -> it_distance rv (pos rv B2 j) (pos rv B2 n2) = n2 - j.
Proof. intros i Hi. unfold it_distance, pos. destruct rv; [specialize (Hb eq_refl)|]; lia. Qed.

(** [min_len] may exceed [n2] by one, if the second range is not consumed before the first element of the first one. *)
Lemma half_inplace_merge_wp' : forall min_len, min_len <= n1 ->
  min_len <= n2 \/ (min_len = S n2 /\ exists x y, nth_error l1 0 = Some x /\ nth_error l2 (n2 - 1) = Some y /\ lt y x = false) -> HM 0 0 m0 ->
  wp (half_inplace_merge rv comp proj B1 (pos rv B1 n1) B2 (pos rv B2 n2) BR min_len) (fun _ m' => HM_done m') m0.
Proof.
  intros min_len Hm1 Hm2 HI. unfold half_inplace_merge.
  apply wp_bind. unfold half_merge_loop_1.
  apply wp_loop' with (I := fun '(k, f1, f2, r) m => exists i j, f1 = pos rv B1 i /\ f2 = pos rv B2 j /\ r = pos rv BR (i + j) /\
        i + j + k = min_len /\ HM i j m /\
        (i = 0 -> j <> 0 -> exists x y, nth_error l1 0 = Some x /\ nth_error l2 (j - 1) = Some y /\ lt y x = true))
    (mu := fun '(k, _, _, _) => k).
  - exists 0, 0. cj; auto; [unfold pos; destruct rv; lia..|]. congruence.
  - lia.
  - intros [[[k f1] f2] r] m (i & j & -> & -> & -> & Hk & HI' & HJ).
    pose proof (hm_i _ _ _ HI'). pose proof (hm_j _ _ _ HI').
    destruct (Nat.eqb_spec k 0) as [->|].
    + apply wp_ret. clear HI. rename HI' into HI. rewrite pos1_eq, pos2_eq by auto.
      destruct (Nat.eqb_spec i n1) as [->|E1].
      { apply wp_ret. eapply HM_finish; eauto. }
      destruct (Nat.eqb_spec j n2) as [->|E2].
      { rewrite dist1 by auto. apply move_rest; auto. }
      unfold half_merge_loop_2.
      apply wp_loop_k with (k := n1 - i + (n2 - j))
        (I := fun k '(f1, f2, r) m => exists i j, f1 = pos rv B1 i /\ f2 = pos rv B2 j /\ r = pos rv BR (i + j) /\
           i < n1 /\ j < n2 /\ k = n1 - i + (n2 - j) /\ HM i j m).
      * exists i, j. cj; auto; lia.
      * rewrite dist1, dist2 by auto. lia.
      * clear i j m Hk H H0 HI HJ E1 E2. intros k [[f1 f2] r] m (i & j & -> & -> & -> & Hi & Hj & -> & HI).
        rewrite pos1_eq, pos2_eq by lia.
        destruct (Nat.eqb_spec i n1); [lia|]. destruct (Nat.eqb_spec j n2); [lia|].
        rewrite !deref_pos, !next_pos.
        destruct (nth_some _ l1 i) as (x1 & Hx1); [lia|]. destruct (nth_some _ l2 j) as (x2 & Hx2); [lia|].
        apply wp_bind. eapply wp_get. { eapply hm_2; eauto. }
        apply wp_bind. eapply wp_get. { eapply hm_1; eauto. }
        destruct (comp (proj x2) (proj x1)) eqn:E.
        -- apply wp_bind. eapply wp_mono. { eapply step_2; eauto. }
           intros ? m' HI'. rewrite pos2_eq by lia. destruct (Nat.eqb_spec (S j) n2) as [E2|E2].
           ++ apply wp_bind. rewrite dist1 by lia. rewrite E2 in HI'.
              replace (S (i + j)) with (i + n2) by lia.
              eapply wp_mono. { eapply move_rest; eauto. }
              intros ? m'' Hd. apply wp_ret. auto.
           ++ apply wp_ret. exists (n1 - i + (n2 - S j)). split; [lia|]. exists i, (S j).
              cj; auto; try lia; f_equal; lia.
        -- apply wp_bind. eapply wp_mono.
           { eapply step_1; eauto. intros y Hy. rewrite Hy in Hx2. injection Hx2 as ->. auto. }
           intros ? m' HI'. rewrite pos1_eq by lia. destruct (Nat.eqb_spec (S i) n1) as [E1|E1].
           ++ apply wp_ret. rewrite E1 in HI'. eapply HM_finish; eauto.
           ++ apply wp_ret. exists (n1 - S i + (n2 - j)). split; [lia|]. exists (S i), j.
              cj; auto; try lia.
    + assert (Hj : j <> n2).
      { intros ->. destruct Hm2 as [Hm2|(Hm2 & x & y & Hx & Hy & Hyx)]; [lia|].
        destruct HJ as (x' & y' & Hx' & Hy' & Hyx'); [lia|apply nth_lt in Hy; lia|]. congruence. }
      assert (Hi : i <> n1) by lia.
      rewrite pos1_eq, pos2_eq by lia.
      destruct (Nat.eqb_spec i n1); [lia|]. destruct (Nat.eqb_spec j n2); [lia|].
      rewrite !deref_pos, !next_pos.
      destruct (nth_some _ l1 i) as (x1 & Hx1); [lia|]. destruct (nth_some _ l2 j) as (x2 & Hx2); [lia|].
      apply wp_bind. eapply wp_get. { eapply hm_2; eauto. }
      apply wp_bind. eapply wp_get. { eapply hm_1; eauto. }
      destruct (comp (proj x2) (proj x1)) eqn:E.
      * apply wp_bind. eapply wp_mono. { eapply step_2; eauto. }
        intros ? m' HI2. apply wp_ret. split; [|lia]. exists i, (S j).
        cj; auto; try lia; try (f_equal; lia). intros E0 _; subst i. exists x1, x2. rewrite Nat.sub_1_r. auto.
      * apply wp_bind. eapply wp_mono.
        { eapply step_1; eauto. intros y Hy. rewrite Hy in Hx2. injection Hx2 as ->. auto. }
        intros ? m' HI2. apply wp_ret. split; [|lia]. exists (S i), j.
        cj; auto; try lia.
Qed.

Lemma half_inplace_merge_wp : forall min_len, min_len <= n1 -> min_len <= n2 -> HM 0 0 m0 ->
  wp (half_inplace_merge rv comp proj B1 (pos rv B1 n1) B2 (pos rv B2 n2) BR min_len) (fun _ m' => HM_done m') m0.
Proof. intros. apply half_inplace_merge_wp'; auto. Qed.
End HM.
