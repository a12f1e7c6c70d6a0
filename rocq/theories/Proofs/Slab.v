(** slabsort sorts. *)
From Coq Require Import List Arith Lia Permutation Bool.
From Verif Require Import Spec.Order Spec.Sorts Spec.Select Lang.Mem Proofs.Wp Proofs.OrderLib Model.Rotate Model.Indirect Proofs.Indirect Model.Buffer
  Model.Select Proofs.Select Proofs.QuickMerge Model.FixedList Model.Mel Model.StablePartition Proofs.StablePartition Model.Slab
  Proofs.FixedList Proofs.Encroach Proofs.SlabMel.
Import ListNotations.
Local Arguments nth_error : simpl never.
Local Arguments upd : simpl never.
Local Arguments Nat.mul : simpl never.
Local Arguments Nat.div : simpl never.
Local Arguments Nat.pow : simpl never.

Section Slab.
Context {A T : Type} (comp : T -> T -> bool) (proj : A -> T) (cat : category) (triv : bool).
Local Notation lt := (by_proj comp proj).
Hypothesis HC : strict_weak_order comp.
Implicit Types (pre post : mem A).

Lemma filter_none : forall X (f : X -> bool) l, (forall x, In x l -> f x = false) -> filter f l = [].
Proof. induction l as [|x l IH]; intros H; auto. simpl. rewrite H by now left. apply IH. intros y Hy. apply H. now right. Qed.

Lemma filter_len : forall X (f : X -> bool) l, length (filter f l) <= length l.
Proof. induction l as [|x l IH]; simpl; auto. destruct (f x); simpl; lia. Qed.

Lemma perm_filter_len : forall X (f : X -> bool) l l', Permutation l l' -> length (filter f l) = length (filter f l').
Proof. intros X f l l' H. induction H; simpl; auto; [destruct (f x); simpl; lia|destruct (f x), (f y); auto|congruence]. Qed.

Lemma slabsort_get_median_wp : forall cap pre xs post (Q : nat -> mem A -> Prop), xs <> [] -> length xs <= cap ->
  (forall a z b, xs = a ++ z :: b -> length (filter (fun x => lt x z) xs) <= length xs / 2 -> Q (length pre + length a) (pre ++ map Val xs ++ post)) ->
  wp (slabsort_get_median comp proj cap (length pre) (length xs)) Q (pre ++ map Val xs ++ post).
Proof.
  intros cap pre xs post Q HN HL HQ. unfold slabsort_get_median.
  apply wp_bind. apply wp_assert. { now apply Nat.leb_le. }
  apply wp_bind. apply iterators_wp.
  assert (HT : length (tag (length pre) xs) = length xs) by (rewrite <- (map_length snd), tag_snd; auto).
  assert (0 < length xs) by (destruct xs; [congruence|simpl; lia]).
  assert (Hk : length xs / 2 < length (tag (length pre) xs)). { rewrite HT. apply Nat.div_lt; lia. }
  destruct (nth_element_selects (nat * A) T comp (fun it => proj (snd it)) HC [] (tag (length pre) xs) [] (length xs / 2) Hk) as (ls & z & rs & E & E1 & E2 & E3 & E4).
  simpl in E. rewrite HT, !app_nil_r in E.
  unfold wp, select_in. change (@nth_element (nat * A) T comp (fun it => proj (snd it)) RandomAccess 0 (length xs) (length xs / 2) (length xs) (map Val (tag (length pre) xs))) with (@median_of_ninthers_select (nat * A) T comp (fun it => proj (snd it)) 0 (length xs / 2) (length xs) (map Val (tag (length pre) xs))). rewrite E. rewrite nth_error_map, nth_error_app2 by lia. rewrite E1, Nat.sub_diag. unfold nth_error. cbn [option_map].
  destruct z as [kz z].
  assert (In (kz, z) (tag (length pre) xs)) as HI. { apply (Permutation_in _ (Permutation_sym E2)). apply in_or_app. right. now left. }
  apply tag_In in HI as [H1 H2]. assert (H2' := H2). apply nth_error_split in H2' as (a & b & E5 & E6).
  cbn [fst]. replace kz with (length pre + length a) by lia. apply (HQ a z b E5).
  assert (Permutation xs (map snd (ls ++ (kz, z) :: rs))) as HP. { rewrite <- E2, tag_snd. auto. }
  rewrite (perm_filter_len _ _ _ _ HP). rewrite map_app, filter_app, app_length. cbn [map snd filter].
  assert (lt z z = false) as Hzz. { destruct (swo_by_proj _ _ comp proj HC) as [HI _ _]. apply HI. }
  rewrite Hzz. rewrite (filter_none _ _ (map snd rs)).
  2:{ intros x Hx. apply in_map_iff in Hx as ([kx x'] & <- & Hx). apply (E4 _ Hx). }
  simpl. rewrite Nat.add_0_r. rewrite <- E1, <- (map_length snd). apply filter_len.
Qed.

Lemma slabsort_partition_wp : forall o cap pre xs post (Q : nat -> mem A -> Prop), 2 <= length xs -> length xs <= cap ->
  (forall ys zs, Permutation xs (ys ++ zs) -> length ys <= length xs / 2 -> (forall y z, In y ys -> In z zs -> lt z y = false) ->
     Q (length pre + length ys) (pre ++ map Val (ys ++ zs) ++ post)) ->
  wp (slabsort_partition comp proj cat triv o cap (length pre) (length pre + length xs) (length xs)) Q (pre ++ map Val xs ++ post).
Proof.
  intros o cap pre xs post Q H2 HL HQ. assert (HW := swo_by_proj _ _ comp proj HC). unfold slabsort_partition.
  apply wp_bind. apply slabsort_get_median_wp; auto. { intros ->. simpl in H2. lia. }
  intros a z b EX HF.
  (* the pivot at the end *)
  assert (exists xs', Permutation xs (xs' ++ [z]) /\ forall Q : unit -> mem A -> Prop, Q tt (pre ++ map Val (xs' ++ [z]) ++ post) ->
     wp (swap (length pre + length a) (length pre + length xs - 1)) Q (pre ++ map Val xs ++ post)) as (xs' & HP & HS).
  { destruct b as [|b0 b'] eqn:Eb.
    - exists a. subst xs. split; auto. intros Q' HQ'. rewrite app_length. simpl length. replace (length pre + (length a + 1) - 1) with (length pre + length a) by lia.
      reshape ((pre ++ map Val a) ++ Val z :: post).
      assert (nth_error ((pre ++ map Val a) ++ Val z :: post) (length pre + length a) = Some (Val z)) as En. { apply nth_mid. rewrite app_length, map_length. auto. }
      eapply wp_swap; [exact En|exact En|]. rewrite !upd_at; try (rewrite app_length, map_length; auto).
      match goal with |- Q' tt ?m => replace m with (pre ++ map Val (a ++ [z]) ++ post) by solve_app end. exact HQ'.
    - destruct (exists_last (l := b0 :: b')) as (b1 & w & E1); [discriminate|]. rewrite E1 in EX.
      exists (a ++ w :: b1). split.
      + rewrite EX. rewrite <- app_assoc. apply Permutation_app_head. cbn [app]. rewrite (Permutation_app_comm b1 [w]). cbn [app]. rewrite perm_swap. constructor. apply Permutation_cons_append.
      + intros Q' HQ'. rewrite EX. reshape ((pre ++ map Val a) ++ Val z :: map Val b1 ++ Val w :: post).
        apply wp_swap_at; [lens|lens; simpl; lia|].
        match goal with |- Q' tt ?m => replace m with (pre ++ map Val ((a ++ w :: b1) ++ [z]) ++ post) by solve_app end. exact HQ'. }
  apply wp_bind. apply HS. clear HS.
  assert (length xs = length xs' + 1) as HL' by (rewrite (Permutation_length HP), app_length; auto).
  rewrite HL'. replace (length pre + (length xs' + 1) - 1) with (length pre + length xs') by lia. replace (length xs' + 1 - 1) with (length xs') by lia.
  apply wp_bind. reshape ((pre ++ map Val xs') ++ Val z :: post). apply wp_get_at. { lens. }
  apply wp_bind. reshape (pre ++ map Val xs' ++ Val z :: post).
  set (f := fun elem => comp (proj elem) (proj z)).
  apply stable_partition_wp; auto.
  set (ts := filter f xs'). set (fs := filter (fun x => negb (f x)) xs').
  assert (Permutation xs' (ts ++ fs)) as HPF.
  { unfold ts, fs. clear. induction xs' as [|x xs' IH]; auto. simpl. destruct (f x); simpl; [now constructor|]. rewrite <- Permutation_middle. now constructor. }
  assert (length ts <= length xs / 2) as HLT.
  { rewrite (perm_filter_len _ _ _ _ HP), filter_app, app_length in HF. change (fun x => lt x z) with f in HF. fold ts in HF. lia. }
  assert (HTS : forall y, In y ts -> lt y z = true). { intros y Hy. apply filter_In in Hy as [_ Hy]. exact Hy. }
  assert (HFS : forall y, In y fs -> lt y z = false). { intros y Hy. apply filter_In in Hy as [_ Hy]. now apply negb_true_iff in Hy. }
  assert (HF2 : forall zs, (forall x, In x zs -> lt x z = false) -> forall y x, In y ts -> In x zs -> lt x y = false).
  { intros zs Hzs y x Hy Hx. destruct (lt x y) eqn:E; auto. destruct HW as [_ HT _]. specialize (Hzs x Hx). 
    assert (lt x z = true) by (eapply HT; eauto). congruence. }
  assert (Hzz : lt z z = false). { destruct HW as [HI _ _]. apply HI. }
  apply wp_bind. clearbody ts fs. destruct fs as [|f0 fs].
  - rewrite app_nil_r in *. rewrite (Permutation_length HPF). reshape ((pre ++ map Val ts) ++ Val z :: post).
    assert (nth_error ((pre ++ map Val ts) ++ Val z :: post) (length pre + length ts) = Some (Val z)) as En. { apply nth_mid. rewrite app_length, map_length. auto. }
    eapply wp_swap; [exact En|exact En|]. rewrite !upd_at; try (rewrite app_length, map_length; auto). apply wp_ret.
    match goal with |- Q _ ?m => replace m with (pre ++ map Val (ts ++ [z]) ++ post) by solve_app end. apply HQ; auto.
    + rewrite HP, HPF. auto.
    + apply HF2. intros x [<-|[]]. auto.
  - rewrite (Permutation_length HPF). reshape ((pre ++ map Val ts) ++ Val f0 :: map Val fs ++ Val z :: post). apply wp_swap_at; [lens|lens; simpl; lia|]. apply wp_ret.
    match goal with |- Q _ ?m => replace m with (pre ++ map Val (ts ++ z :: fs ++ [f0]) ++ post) by solve_app end. apply HQ; auto.
    + rewrite HP, HPF. rewrite <- app_assoc. apply Permutation_app_head. cbn [app]. rewrite (Permutation_app_comm fs [z]), (Permutation_app_comm fs [f0]). cbn [app]. apply perm_swap.
    + apply HF2. intros x [<-|Hx]; auto. apply HFS. apply in_app_or in Hx as [Hx|[<-|[]]]; [now right|now left].
Qed.

Lemma slabsort_impl_wp : forall fuel o cap n N e k p xs pre post (Q : node_pool nat -> mem A -> Prop), pool_ok n p -> length xs <= n -> length xs <= cap -> length xs <= N ->
  1 <= e -> 1 <= k -> 3 * e <= 6 * Nat.log2 N + 3 -> k + (6 * Nat.log2 N + 3 - 3 * e) < fuel ->
  (forall p' ys, pool_ok n p' -> Permutation xs ys -> sorted lt ys -> Q p' (pre ++ map Val ys ++ post)) ->
  wp (slabsort_impl comp proj cat triv fuel o cap (length pre) (length pre + length xs) (length xs) (2 ^ e) (2 ^ k) p) Q (pre ++ map Val xs ++ post).
Proof.
  induction fuel as [|fuel IH]; intros o cap n N e k p xs pre post Q HP HLn HLc HLN He Hk HeN HF HQ; [lia|].
  assert (HW := swo_by_proj _ _ comp proj HC). cbn [slabsort_impl].
  destruct (Nat.ltb_spec (length xs) 2) as [H2|H2].
  { apply wp_ret. apply HQ; auto. destruct xs as [|x [|]]; simpl in H2; try lia; auto using sorted_nil, sorted_one. }
  apply wp_bind. apply slabsort_partition_wp; auto. intros ys zs HPM HLy HYZ.
  assert (HLL : length xs = length ys + length zs) by (rewrite (Permutation_length HPM); apply app_length).
  apply wp_bind. apply wp_assert. { apply Nat.leb_le. lia. }
  replace (length pre + length ys - length pre) with (length ys) by lia. replace (length xs - length ys) with (length zs) by lia.
  assert (HFIN : forall p' ys' zs', pool_ok n p' -> Permutation ys ys' -> sorted lt ys' -> Permutation zs zs' -> sorted lt zs' -> Q p' (pre ++ map Val (ys' ++ zs') ++ post)).
  { intros p' ys' zs' HP' P1 S1 P2 S2. apply HQ; auto.
    - rewrite HPM. now apply Permutation_app.
    - apply sorted_app. cj; auto. intros y z Hy Hz. apply HYZ; [apply (Permutation_in _ (Permutation_sym P1)), Hy|apply (Permutation_in _ (Permutation_sym P2)), Hz]. }
  assert (RIGHT : forall (rest : nat -> nat -> nat -> node_pool nat -> M A (node_pool nat)) p' ys', pool_ok n p' -> Permutation ys ys' -> sorted lt ys' ->
    (forall Q' : node_pool nat -> mem A -> Prop, (forall p' zs', pool_ok n p' -> Permutation zs zs' -> sorted lt zs' -> Q' p' ((pre ++ map Val ys') ++ map Val zs' ++ post)) ->
       wp (rest (length (pre ++ map Val ys')) (length (pre ++ map Val ys') + length zs) (length zs) p') Q' ((pre ++ map Val ys') ++ map Val zs ++ post)) ->
    wp (rest (length pre + length ys) (length pre + length xs) (length zs) p') Q (pre ++ map Val ys' ++ map Val zs ++ post)).
  { intros rest p' ys' HP' P1 S1 HR. assert (length ys' = length ys) as HLy' by (symmetry; now apply Permutation_length).
    reshape ((pre ++ map Val ys') ++ map Val zs ++ post).
    replace (length pre + length ys) with (length (pre ++ map Val ys')) by lens. replace (length pre + length xs) with (length (pre ++ map Val ys') + length zs) by lens.
    apply HR. intros p2 zs' HP2 P2 S2. match goal with |- Q _ ?m => replace m with (pre ++ map Val (ys' ++ zs') ++ post) by solve_app end. auto. }
  destruct (Nat.ltb_spec 2 (2 ^ k)) as [Hk2|Hk2].
  - destruct k as [|[|k]]; [lia|exfalso; change (2 ^ 1) with 2 in Hk2; lia|].
    assert (2 ^ S (S k) / 2 = 2 ^ S k) as ->. { rewrite (Nat.pow_succ_r' 2 (S k)), Nat.mul_comm. apply Nat.div_mul. lia. }
    apply wp_bind. reshape (pre ++ map Val ys ++ (map Val zs ++ post)).
    eapply IH with (N := N); eauto; try lia.
    intros p' ys' HP' P1 S1.
    apply (RIGHT (fun f l s q => slabsort_impl comp proj cat triv fuel (sub 2 o) cap f l s (2 ^ e) (2 ^ S k) q)); auto.
    intros Q' HQ'. eapply IH with (N := N); eauto; lia.
  - assert (k = 1) as ->. { destruct k as [|[|k]]; auto; [lia|]. exfalso. rewrite !Nat.pow_succ_r' in Hk2. assert (2 ^ k <> 0) by (apply Nat.pow_nonzero; lia). lia. }
    assert (HSQ : 2 ^ e * 2 ^ e = 2 ^ (2 * e)) by (rewrite <- Nat.pow_add_r; f_equal; lia). rewrite HSQ.
    assert (HLOG : forall x, 2 ^ e <= x -> x <= N -> e <= Nat.log2 N). { intros x Hx Hx2. apply Nat.log2_le_pow2; [|lia]. assert (2 ^ e <> 0) by (apply Nat.pow_nonzero; lia). lia. }
    assert (SECOND : forall p' ys', pool_ok n p' -> Permutation ys ys' -> sorted lt ys' ->
      wp (let* (done, p) := try_melsort comp proj (length pre + length ys) (length pre + length xs) (length zs) (2 ^ e) p' in
          if done : bool then ret p else slabsort_impl comp proj cat triv fuel (sub 2 o) cap (length pre + length ys) (length pre + length xs) (length zs) (2 ^ (2 * e)) (2 ^ (2 * e)) p)
         Q (pre ++ map Val ys' ++ map Val zs ++ post)).
    { intros p' ys' HP' P1 S1.
      apply (RIGHT (fun f l s q => let* (done, p) := try_melsort comp proj f l s (2 ^ e) q in
          if done : bool then ret p else slabsort_impl comp proj cat triv fuel (sub 2 o) cap f l s (2 ^ (2 * e)) (2 ^ (2 * e)) p)); auto.
      intros Q' HQ'. apply wp_bind. eapply try_melsort_wp with (n := n); eauto; try lia.
      intros [] p2 zs' HP2 P2 S2 F2.
      - apply wp_ret. auto.
      - specialize (F2 eq_refl). specialize (HLOG _ F2 ltac:(lia)). assert (length zs' = length zs) as HLz by (symmetry; now apply Permutation_length). rewrite <- HLz.
        eapply IH with (n := n) (N := N); eauto; try lia.
        intros p3 zs2 HP3 P3 S3. apply HQ'; auto. now rewrite P2. }
    apply wp_bind. reshape (pre ++ map Val ys ++ (map Val zs ++ post)).
    eapply try_melsort_wp with (n := n); eauto; try lia.
    intros [] p2 ys' HP2 P2 S2 F2.
    + apply wp_bind, wp_ret. auto.
    + apply wp_bind. specialize (F2 eq_refl). specialize (HLOG _ F2 ltac:(lia)). assert (length ys' = length ys) as HLz by (symmetry; now apply Permutation_length).
      assert (wp (slabsort_impl comp proj cat triv fuel (sub 1 o) cap (length pre) (length pre + length ys') (length ys') (2 ^ (2 * e)) (2 ^ (2 * e)) p2)
        (fun p m => pool_ok n p /\ exists ys2, Permutation ys ys2 /\ sorted lt ys2 /\ m = pre ++ map Val ys2 ++ map Val zs ++ post) (pre ++ map Val ys' ++ map Val zs ++ post)) as H.
      { eapply IH with (n := n) (N := N); eauto; try lia. intros p3 ys3 HP3 P3 S3. split; auto. exists ys3. cj; auto. now rewrite P2. }
      rewrite HLz in H. eapply wp_mono; [exact H|]. intros p3 m3 (HP3 & ys3 & P3 & S3 & ->). auto.
Qed.

Lemma slabsort_sorts : forall o, sorts lt (slab_sorter comp proj cat triv o).
Proof.
  intros o pre xs post. unfold slab_sorter. replace (length pre + length xs - length pre) with (length xs) by lia.
  assert (wp (slabsort comp proj cat triv o (length pre) (length pre + length xs) (length xs))
    (fun _ m' => exists ys, m' = pre ++ map Val ys ++ post /\ Permutation xs ys /\ sorted lt ys) (pre ++ map Val xs ++ post)) as H.
  2:{ apply wp_ok in H as ([] & m & E & ys & -> & HR). eauto. }
  unfold slabsort. destruct (Nat.ltb_spec (length xs) 2) as [H2|H2].
  { apply wp_ret. exists xs. cj; auto. destruct xs as [|x [|]]; simpl in H2; try lia; auto using sorted_nil, sorted_one. }
  apply wp_bind. apply new_pool_wp; [lia|]. intros p0 HPR. pose proof (pristine_freelist p0 (length xs) ltac:(lia) HPR) as HFL.
  assert (pool_ok (length xs) p0) as HP0.
  { exists (seq 0 (length xs)). split; [|apply seq_length]. split; [constructor|]. split; [exact HFL|]. cbn [concat app]. apply seq_NoDup. }
  apply wp_bind. eapply try_melsort_wp; eauto. intros [] p1 ys HP1 P1 S1 _.
  - apply wp_ret. eauto.
  - apply wp_bind. rewrite (Permutation_length P1) in *. change 2 with (2 ^ 1).
    eapply slabsort_impl_wp with (N := length ys) (e := 1) (k := 1); eauto; try lia.
    intros p2 zs HP2 P2 S2. apply wp_ret. exists zs. cj; auto. now rewrite P1.
Qed.
End Slab.
