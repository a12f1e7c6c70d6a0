(** The merges of spinsort, on sorted ranges. *)
From Coq Require Import List Arith Lia Permutation Bool.
From Verif Require Import Spec.Order Lang.Mem Spec.Sorts Proofs.Wp Proofs.OrderLib Model.Rotate Proofs.Indirect Proofs.Search Proofs.HalfMerge Proofs.Regions
  Model.Insertion Proofs.Insertion Model.Select Proofs.Select Model.Merge Model.Spin Proofs.SpinMerge.
Import ListNotations.
Local Arguments nth_error : simpl never.
Local Arguments upd : simpl never.
Local Arguments Nat.leb : simpl never.
Local Arguments Nat.ltb : simpl never.

Section Merges.
Context {A T : Type} (comp : T -> T -> bool) (proj : A -> T).
Local Notation lt := (by_proj comp proj).
Implicit Types (m : mem A).

(** A move to the left, to an overlapping region. *)
Lemma move_range_left : forall xs m f l r (Q : nat -> mem A -> Prop), r < f -> seg m f xs -> l = f + length xs -> lives m r (f + length xs - r) ->
  (forall m', seg m' r xs -> lives m' r (f + length xs - r) -> only (within r (f + length xs - r)) m m' -> Q (r + length xs) m') ->
  wp (move_range f l r) Q m.
Proof.
  intros xs m f l r Q HR HS -> HL HQ. unfold move_range.
  apply wp_loop' with
    (I := fun '(f1, r1) m1 => exists a b, xs = a ++ b /\ f1 = f + length a /\ r1 = r + length a /\
       seg m1 (f + length a) b /\ seg m1 r a /\ lives m1 r (f + length xs - r) /\ only (within r (f + length xs - r)) m m1)
    (mu := fun '(f1, _) => f + length xs - f1).
  - exists [], xs. simpl. rewrite !Nat.add_0_r. cj; auto. { apply seg_nil. destruct HL. lia. } { apply only_refl. }
  - lia.
  - intros [f1 r1] m1 (a & b & -> & -> & -> & S1 & S2 & L1 & HO). rewrite app_length in *. destruct (Nat.eqb_spec (f + length a) (f + (length a + length b))) as [E|E].
    + apply wp_ret. destruct b; [|simpl in E; lia]. rewrite app_nil_r in *. replace (r + length a) with (r + (length a + length (@nil A))) by (simpl; lia). auto.
    + destruct b as [|x b]; [simpl in E; lia|]. apply seg_cons in S1 as [Hx S1].
      apply wp_bind. eapply wp_move_one; [simpl in *; lia|exact Hx|eapply lives_at; [exact L1|simpl; lia]|].
      intros m2 Hr HLV HO2. apply wp_ret. simpl in L1, HO |- *. split; [|lia].
      exists (a ++ [x]), b. rewrite app_length. simpl. cj; try lia.
      * now rewrite <- app_assoc.
      * replace (f + (length a + 1)) with (S (f + length a)) by lia. eapply seg_only; [exact HO2| |exact S1]. unfold within. intros i Hi. lia.
      * apply seg_app. split; [eapply seg_only; [exact HO2| |exact S2]; unfold within; intros i Hi; lia|]. apply seg_cons. split; auto. apply seg_nil.
        destruct HO2 as [-> _]. destruct L1. lia.
      * eapply lives_change; eauto. apply HO2.
      * eapply only_trans; [exact HO|]. eapply only_weaken; [exact HO2|]. unfold within. intros i Hi. lia.
Qed.

Lemma last_split : forall X (l : list X), l <> [] -> exists t x, l = t ++ [x].
Proof. intros X l H. destruct (exists_last H) as (t & x & E). eauto. Qed.

Hypothesis HC : strict_weak_order comp.
Let HW : strict_weak_order lt := swo_by_proj _ _ comp proj HC.

Lemma boost_merge_region : forall l1 l2 m a ea b eb r (Q : nat -> mem A -> Prop), sorted lt l1 -> sorted lt l2 ->
  seg m a l1 -> seg m b l2 -> lives m r (length l1 + length l2) ->
  ea = a + length l1 -> eb = b + length l2 ->
  apart a (length l1) b (length l2) -> apart a (length l1) r (length l1 + length l2) -> apart b (length l2) r (length l1 + length l2) ->
  (forall p m', seg m' r (ssort lt (l1 ++ l2)) -> lives m' a (length l1) -> lives m' b (length l2) ->
     only (fun i => within a (length l1) i \/ within b (length l2) i \/ within r (length l1 + length l2) i) m m' -> Q p m') ->
  wp (boost_merge comp proj a ea b eb r) Q m.
Proof.
  intros l1 l2 m a ea b eb r Q O1 O2 S1 S2 LR -> -> AAB AAR ABR HQ. unfold boost_merge.
  assert (REST : wp (merge_move comp proj a (a + length l1) b (b + length l2) r) Q m).
  { apply merge_move_region with (l1 := l1) (l2 := l2); auto. intros m' H1 H2 H3 H4. rewrite (merge_sorted_eq lt HW) in H1 by auto. apply HQ; auto. }
  destruct (1024 <=? _); [|exact REST].
  destruct (Nat.eqb_spec a (a + length l1)) as [E|E1].
  { destruct l1; [|simpl in E; lia]. simpl length in *. rewrite Nat.add_0_l in *. apply move_range_region with (xs := l2); auto.
    intros m' H1 H2 H3. apply HQ; auto.
    - simpl. rewrite ssort_id; auto.
    - split; [|intros; lia]. rewrite (proj1 H3). apply seg_len in S1. auto.
    - eapply only_weaken; [exact H3|]. win. }
  destruct (Nat.eqb_spec b (b + length l2)) as [E|E2].
  { destruct l2; [|simpl in E; lia]. simpl length in *. rewrite Nat.add_0_r in *. apply move_range_region with (xs := l1); auto.
    intros m' H1 H2 H3. apply HQ; auto.
    - rewrite app_nil_r, ssort_id; auto.
    - split; [|intros; lia]. rewrite (proj1 H3). apply seg_len in S2. simpl in S2. lia.
    - eapply only_weaken; [exact H3|]. win. }
  assert (N1 : l1 <> []) by (intros ->; simpl in *; lia). assert (N2 : l2 <> []) by (intros ->; simpl in *; lia).
  destruct l2 as [|y2 l2'] eqn:EL2; [congruence|]. rewrite <- EL2 in *. destruct (last_split _ l1 N1) as (l1' & x1 & EL1).
  assert (nth_error m b = Some (Val y2)) as GY2. { rewrite EL2 in S2. apply seg_cons in S2. tauto. }
  assert (nth_error m (a + length l1 - 1) = Some (Val x1)) as GX1.
  { rewrite EL1 in S1 |- *. apply seg_app in S1 as [_ S1]. apply seg_cons in S1 as [S1 _]. rewrite app_length. simpl. replace (a + (length l1' + 1) - 1) with (a + length l1') by lia. auto. }
  apply wp_bind. eapply wp_get; [exact GY2|]. apply wp_bind. eapply wp_get; [exact GX1|].
  destruct (comp (proj y2) (proj x1)) eqn:EC; cbn [negb].
  2:{ apply wp_bind. apply move_range_region with (xs := l1); auto; try win.
      { eapply lives_sub; [exact LR|win|win]. }
      intros m1 H1 H2 H3. apply move_range_region with (xs := l2); auto; try win.
      { eapply seg_only; [exact H3| |exact S2]. win. }
      { eapply lives_only; [exact H3| |eapply lives_sub; [exact LR|win|win]]. win. }
      intros m2 H4 H5 H6. apply HQ; auto.
      - replace (ssort lt (l1 ++ l2)) with (l1 ++ l2). 2:{ rewrite EL1, EL2. symmetry. apply ssort_in_order; auto; [now rewrite <- EL1|now rewrite <- EL2]. }
        apply seg_app. split; auto. eapply seg_only; [exact H6| |exact H1]. win.
      - eapply lives_only; [exact H6| |exact H2]. win.
      - eapply only_trans; (eapply only_weaken; [eassumption|]); win. }
  destruct l1 as [|x0 l1''] eqn:EL0; [congruence|]. rewrite <- EL0 in *. destruct (last_split _ l2 N2) as (l2'' & y0 & EL3).
  assert (nth_error m a = Some (Val x0)) as GX0. { rewrite EL0 in S1. apply seg_cons in S1. tauto. }
  assert (nth_error m (b + length l2 - 1) = Some (Val y0)) as GY0.
  { rewrite EL3 in S2 |- *. apply seg_app in S2 as [_ S2]. apply seg_cons in S2 as [S2 _]. rewrite app_length. simpl. replace (b + (length l2'' + 1) - 1) with (b + length l2'') by lia. auto. }
  apply wp_bind. eapply wp_get; [exact GY0|]. apply wp_bind. eapply wp_get; [exact GX0|].
  destruct (comp (proj y0) (proj x0)) eqn:EC2; [|exact REST].
  apply wp_bind. apply move_range_region with (xs := l2); auto; try win.
  { eapply lives_sub; [exact LR|win|win]. }
  intros m1 H1 H2 H3. apply move_range_region with (xs := l1); auto; try win.
  { eapply seg_only; [exact H3| |exact S1]. win. }
  { eapply lives_only; [exact H3| |eapply lives_sub; [exact LR|win|win]]. win. }
  intros m2 H4 H5 H6. apply HQ; auto.
  - replace (ssort lt (l1 ++ l2)) with (l2 ++ l1). 2:{ rewrite EL0, EL3. symmetry. apply ssort_swapped; auto; [now rewrite <- EL0|now rewrite <- EL3]. }
    apply seg_app. split; auto. eapply seg_only; [exact H6| |exact H1]. win.
  - eapply lives_only; [exact H6| |exact H2]. win.
  - eapply only_trans; (eapply only_weaken; [eassumption|]); win.
Qed.

Lemma merge_half_region : forall l1 l2 m B eB b eb f (Q : unit -> mem A -> Prop), sorted lt l1 -> sorted lt l2 ->
  seg m B l1 -> seg m b l2 -> lives m f (length l1) -> eB = B + length l1 -> b = f + length l1 -> eb = b + length l2 ->
  apart B (length l1) f (length l1 + length l2) ->
  (length l1 <= length l2 \/ length l1 = S (length l2) /\
     (1024 <= length l1 + length l2 \/ exists x y, nth_error l1 0 = Some x /\ nth_error l2 (length l2 - 1) = Some y /\ lt y x = false)) ->
  (forall m', seg m' f (ssort lt (l1 ++ l2)) -> lives m' B (length l1) ->
     only (fun i => within B (length l1) i \/ within f (length l1 + length l2) i) m m' -> Q tt m') ->
  wp (merge_half comp proj B eB b eb f) Q m.
Proof.
  intros l1 l2 m B eB b eb f Q O1 O2 S1 S2 LF -> -> -> AP HN HQ. unfold merge_half.
  apply wp_bind. apply wp_assert. { apply Nat.eqb_eq. lia. }
  replace (B + length l1 - B) with (length l1) by lia. replace (f + length l1 + length l2 - (f + length l1)) with (length l2) by lia.
  assert (REST : length l1 <= length l2 \/ length l1 = S (length l2) /\ (exists x y, nth_error l1 0 = Some x /\ nth_error l2 (length l2 - 1) = Some y /\ lt y x = false) ->
    wp (half_inplace_merge false comp proj B (B + length l1) (f + length l1) (f + length l1 + length l2) f (length l1)) Q m).
  { intros HN'. eapply wp_mono.
    - apply (half_inplace_merge_wp' comp proj false B (f + length l1) f l1 l2 m); auto; try discriminate.
      + intros i j Hi Hj. unfold adr. win.
      + split; auto; try lia.
        * exists []. cj; auto. intros [|t] x Hx; discriminate.
        * intros t x _ Hx. eapply seg_get; eauto.
        * intros t x _ Hx. eapply seg_get; eauto.
        * intros t Ht. unfold adr. destruct (Nat.lt_ge_cases t (length l1)); [eapply lives_at; [exact LF|lia]|]. eapply lives_at; [apply seg_lives; exact S2|lia].
        * intros t Ht. unfold adr. eapply lives_at; [apply seg_lives; exact S1|lia].
    - intros [] m' (D1 & D2 & D3 & D4). unfold adr in *. apply HQ.
      + rewrite <- (merge_sorted_eq lt HW) by auto. split; [|auto]. rewrite merge_length, D1. apply seg_len in S2. lia.
      + split; [apply seg_len in S1; lia|]. intros i Hi. replace i with (B + (i - B)) by lia. apply D3. lia.
      + split; auto. intros i Hi. apply D4; intros t Ht E; apply Hi; win. }
  destruct (Nat.leb_spec 1024 (length l1 + length l2)) as [H1024|H1024]; [|apply REST; destruct HN as [|[HN [HN'|HN']]]; [left; auto|lia|right; auto]].
  destruct (Nat.eqb_spec B (B + length l1)) as [E|E1].
  { apply wp_ret. destruct l1; [|simpl in E; lia]. simpl length in *. apply HQ.
    - simpl. rewrite ssort_id by auto. now rewrite Nat.add_0_r in S2.
    - split; [|intros; lia]. apply seg_len in S1. auto.
    - apply only_refl. }
  destruct (Nat.eqb_spec (f + length l1) (f + length l1 + length l2)) as [E|E2].
  { destruct l2; [|simpl in E; lia]. simpl length in *. rewrite Nat.add_0_r in *. apply wp_bind. apply move_range_region with (xs := l1); auto.
    intros m' H1 H2 H3. apply wp_ret. apply HQ; auto.
    - rewrite app_nil_r, ssort_id; auto. }
  assert (N1 : l1 <> []) by (intros ->; simpl in *; lia). assert (N2 : l2 <> []) by (intros ->; simpl in *; lia).
  destruct l2 as [|y2 l2'] eqn:EL2; [congruence|]. rewrite <- EL2 in *. destruct (last_split _ l1 N1) as (l1' & x1 & EL1).
  assert (nth_error m (f + length l1) = Some (Val y2)) as GY2. { rewrite EL2 in S2. apply seg_cons in S2. tauto. }
  assert (nth_error m (B + length l1 - 1) = Some (Val x1)) as GX1.
  { rewrite EL1 in S1 |- *. apply seg_app in S1 as [_ S1]. apply seg_cons in S1 as [S1 _]. rewrite app_length. simpl. replace (B + (length l1' + 1) - 1) with (B + length l1') by lia. auto. }
  apply wp_bind. eapply wp_get; [exact GY2|]. apply wp_bind. eapply wp_get; [exact GX1|].
  destruct (comp (proj y2) (proj x1)) eqn:EC; cbn [negb].
  2:{ apply wp_bind. apply move_range_region with (xs := l1); auto; try win.
      intros m1 H1 H2 H3. apply wp_ret. apply HQ; auto.
      - replace (ssort lt (l1 ++ l2)) with (l1 ++ l2). 2:{ rewrite EL1, EL2. symmetry. apply ssort_in_order; auto; [now rewrite <- EL1|now rewrite <- EL2]. }
        apply seg_app. split; auto. eapply seg_only; [exact H3| |exact S2]. win.
      - eapply only_weaken; [eassumption|]. win. }
  destruct l1 as [|x0 l1''] eqn:EL0; [congruence|]. rewrite <- EL0 in *. destruct (last_split _ l2 N2) as (l2'' & y0 & EL3).
  assert (nth_error m B = Some (Val x0)) as GX0. { rewrite EL0 in S1. apply seg_cons in S1. tauto. }
  assert (nth_error m (f + length l1 + length l2 - 1) = Some (Val y0)) as GY0.
  { rewrite EL3 in S2 |- *. apply seg_app in S2 as [_ S2]. apply seg_cons in S2 as [S2 _]. rewrite app_length. simpl. replace (f + length l1 + (length l2'' + 1) - 1) with (f + length l1 + length l2'') by lia. auto. }
  apply wp_bind. eapply wp_get; [exact GY0|]. apply wp_bind. eapply wp_get; [exact GX0|].
  destruct (comp (proj y0) (proj x0)) eqn:EC2.
  2:{ apply REST. destruct HN as [HN|[HN _]]; [left; auto|]. right. split; auto. exists x0, y0. cj; auto. { now rewrite EL0. }
      rewrite EL3, app_length. simpl. rewrite nth_error_app2 by lia. now replace (length l2'' + 1 - 1 - length l2'') with 0 by lia. }
  apply wp_bind. apply move_range_left with (xs := l2); auto.
  { assert (length l1 <> 0) by (rewrite EL0; simpl; lia). lia. }
  { replace (f + length l1 + length l2 - f) with (length l1 + length l2) by lia. apply lives_app; auto. now apply seg_lives. }
  replace (f + length l1 + length l2 - f) with (length l1 + length l2) by lia.
  intros m1 H1 H2 H3. apply wp_bind. apply move_range_region with (xs := l1); auto; try win.
  { eapply seg_only; [exact H3| |exact S1]. win. }
  { eapply lives_sub; [exact H2|win|win]. }
  intros m2 H4 H5 H6. apply wp_ret. apply HQ; auto.
  - replace (ssort lt (l1 ++ l2)) with (l2 ++ l1). 2:{ rewrite EL0, EL3. symmetry. apply ssort_swapped; auto; [now rewrite <- EL0|now rewrite <- EL3]. }
    apply seg_app. split; auto. eapply seg_only; [exact H6| |exact H1]. win.
  - eapply only_trans; (eapply only_weaken; [eassumption|]); win.
Qed.
End Merges.
