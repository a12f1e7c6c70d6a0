(** quick_merge_sort with a comparison that is not an order. *)
From Coq Require Import List Arith Lia Permutation Bool.
From Verif Require Import Spec.Order Lang.Mem Spec.Sorts Spec.Select Proofs.Wp Proofs.OrderLib Model.Basic Proofs.Basic
  Model.Rotate Proofs.Rotate Model.Pdq Model.Quick Model.Select Proofs.IndexLib Proofs.NetLib Proofs.PdqPart Proofs.Pdq Proofs.Quick Proofs.Select
  Proofs.QuickMerge.
Import ListNotations.

Section QuickMergeAny.
Context {A T : Type} (comp : T -> T -> bool) (proj : A -> T).
Notation lt := (by_proj comp proj).
Implicit Types pre mid post : mem A.

(** Invariant on the lists, relative to the lists at the start of the merge. *)
Definition pinv (L0 R0 B0 O J1 R J2 L : list A) : Prop :=
  length J1 = length L /\ Permutation (L0 ++ R0) (O ++ L ++ R) /\ Permutation B0 (J1 ++ J2).

Lemma pstep_R : forall L0 R0 B0 O j J1 r R J2 x L,
  pinv L0 R0 B0 O (j :: J1) (r :: R) J2 (x :: L) -> pinv L0 R0 B0 (O ++ [r]) (J1 ++ [j]) R J2 (x :: L).
Proof.
  intros L0 R0 B0 O j J1 r R J2 x L (H1 & H2 & H3). unfold pinv. cj.
  - lensr.
  - etransitivity; [exact H2|]. rewrite <- app_assoc. apply Permutation_app_head. simpl.
    apply Permutation_sym. apply (Permutation_middle (x :: L) R r).
  - etransitivity; [exact H3|]. simpl. rewrite <- app_assoc. simpl. apply Permutation_middle.
Qed.
Lemma pstep_L : forall L0 R0 B0 O j J1 r R J2 x L,
  pinv L0 R0 B0 O (j :: J1) (r :: R) J2 (x :: L) -> pinv L0 R0 B0 (O ++ [x]) J1 (r :: R) (J2 ++ [j]) L.
Proof.
  intros L0 R0 B0 O j J1 r R J2 x L (H1 & H2 & H3). unfold pinv. cj.
  - lensr.
  - etransitivity; [exact H2|]. rewrite <- app_assoc. reflexivity.
  - etransitivity; [exact H3|]. simpl. rewrite app_assoc. apply Permutation_cons_append.
Qed.

Lemma half_merge_any : forall pre L0 R0 mid B0 post f1 l1 f2 l2 res,
  length B0 = length L0 -> length L0 <= length R0 ->
  res = length pre -> f2 = res + length B0 -> l2 = f2 + length R0 -> f1 = l2 + length mid -> l1 = f1 + length L0 ->
  wp (internal_half_inplace_merge comp proj f1 l1 f2 l2 res (length L0)) (fun _ m' => exists ys B,
    m' = pre ++ map Val ys ++ mid ++ map Val B ++ post /\ Permutation (L0 ++ R0) ys /\ Permutation B0 B)
    (pre ++ map Val (B0 ++ R0) ++ mid ++ map Val L0 ++ post).
Proof.
  intros pre L0 R0 mid B0 post f1 l1 f2 l2 res HB HLR Hres Hf2 Hl2 Hf1 Hl1. unfold internal_half_inplace_merge.
  set (st := fun '(f1', f2', res') (m : mem A) (O J1 R J2 L : list A) =>
    m = mshape pre O J1 R mid J2 L post /\ pinv L0 R0 B0 O J1 R J2 L /\
    res' = res + length O /\ f2' = res' + length J1 /\ f2' + length R = l2 /\ f1' = l2 + length mid + length J2 /\ f1' + length L = l1).
  apply wp_bind.
  apply wp_mono with (Q := fun s m => exists O J1 R J2 L, st s m O J1 R J2 L).
  { apply wp_loop' with (I := fun '(g1, g2, r, k) m => exists O J1 R J2 L, st (g1, g2, r) m O J1 R J2 L /\
      k <= length L /\ k <= length R) (mu := fun '(g1, g2, r, k) => k).
    - exists [], B0, R0, [], L0. unfold st, mshape, pinv. simpl. cj; auto; try lia. rewrite app_nil_r. reflexivity.
    - lia.
    - intros [[[g1 g2] r] k] m (O & J1 & R & J2 & L & (-> & HI & Hr & Hg2 & Hl2' & Hg1 & Hl1') & Hk1 & Hk2).
      destruct (Nat.eqb_spec k 0) as [->|Hk].
      { apply wp_ret. exists O, J1, R, J2, L. unfold st. cj; auto. }
      destruct L as [|x L]; [simpl in *; lia|]. destruct R as [|y R]; [simpl in *; lia|].
      pose proof HI as (HJ & _). destruct J1 as [|j J1]; [discriminate|]. simpl in HJ. injection HJ as HJ.
      apply wp_bind, wp_assert. { apply negb_true_iff, Nat.eqb_neq. lensr. }
      apply wp_bind, wp_assert. { apply negb_true_iff, Nat.eqb_neq. lensr. }
      apply merge_step_wp; auto; try (lensr; fail).
      + intros E. split; [|lia]. exists (O ++ [y]), (J1 ++ [j]), R, J2, (x :: L). unfold st. cj; auto; try (lensr; fail).
        apply pstep_R; auto.
      + intros E. split; [|lia]. exists (O ++ [x]), J1, (y :: R), (J2 ++ [j]), L. unfold st. cj; auto; try (lensr; fail).
        eapply pstep_L; eauto. }
  intros [[g1 g2] r] m (O & J1 & R & J2 & L & HS). cbv beta iota.
  apply wp_loop' with (I := fun s m => exists O J1 R J2 L, st s m O J1 R J2 L)
    (mu := fun '(g1, g2, r) => (l1 - g1) + (l2 - g2)).
  - eauto 10.
  - lia.
  - clear -Hres. intros [[g1 g2] r] m (O & J1 & R & J2 & L & -> & HI & Hr & Hg2 & Hl2' & Hg1 & Hl1').
    pose proof HI as (HJ & HP & HPB).
    destruct (Nat.eqb_spec g1 l1) as [E1|E1].
    { assert (L = []) as -> by (destruct L; auto; lensr). assert (J1 = []) as -> by (destruct J1; auto; lensr).
      apply wp_ret. exists (O ++ R), J2. cj; auto. unfold mshape. solve_app. }
    destruct L as [|x L]; [simpl in *; lia|]. destruct J1 as [|j J1]; [discriminate|]. simpl in HJ. injection HJ as HJ.
    destruct (Nat.eqb_spec g2 l2) as [E2|E2].
    { assert (R = []) as -> by (destruct R; auto; lensr). apply wp_bind. unfold swap_ranges_inner, mshape.
      apply wp_bind, wp_assert. { apply Nat.leb_le. lia. }
      apply wp_bind, wp_assert. { apply negb_true_iff, andb_false_iff. left. apply Nat.leb_gt. lensr. }
      apply wp_bind, wp_assert. { apply negb_true_iff, andb_false_iff. left. apply Nat.ltb_ge. lensr. }
      reshape ((pre ++ map Val O) ++ map Val (j :: J1) ++ (mid ++ map Val J2) ++ map Val (x :: L) ++ post).
      apply swap_ranges_r_wp; try (lensr; fail). apply wp_ret.
      exists (O ++ (x :: L)), (J2 ++ (j :: J1)). cj; auto.
      - solve_app.
      - etransitivity; [exact HP|]. rewrite app_nil_r. reflexivity.
      - etransitivity; [exact HPB|]. apply Permutation_app_comm. }
    destruct R as [|y R]; [simpl in *; lia|].
    apply merge_step_wp; auto; try (lensr; fail).
    + intros E. split; [|lensr]. exists (O ++ [y]), (J1 ++ [j]), R, J2, (x :: L). unfold st. cj; auto; try (lensr; fail).
      apply pstep_R; auto.
    + intros E. split; [|lensr]. exists (O ++ [x]), J1, (y :: R), (J2 ++ [j]), L. unfold st. cj; auto; try (lensr; fail).
      eapply pstep_L; eauto.
Qed.

Lemma internal_mergesort_any : forall bidi fuel pre xs mid B post f l size buffer,
  f = length pre -> size = length xs -> l = f + size -> buffer = l + length mid -> size / 2 <= length B -> size < fuel ->
  wp (internal_mergesort comp proj bidi fuel f l size buffer) (fun _ m' => exists ys B',
    m' = pre ++ map Val ys ++ mid ++ map Val B' ++ post /\ Permutation xs ys /\ Permutation B B')
    (pre ++ map Val xs ++ mid ++ map Val B ++ post).
Proof.
  intros bidi fuel. induction fuel as [|fuel IH]; intros pre xs mid B post f l size buffer Hf Hs Hl Hb HB Hfu; [lia|].
  cbn [internal_mergesort]. unfold qmsort_limit. destruct (Nat.leb_spec size 32) as [Hn|Hn].
  - eapply wp_mono; [apply small_sort_wp; [lia|]|].
    + subst. apply full_init.
    + intros u m' [HP _]. subst. apply pm_decomp in HP as (ys & -> & HP). exists ys, B. cj; auto.
  - assert (size / 2 <= size - size / 2 /\ size / 2 < size /\ 0 < size / 2) as (Hd1 & Hd2 & Hd3).
    { pose proof (Nat.div_mod size 2 ltac:(lia)). pose proof (Nat.mod_upper_bound size 2 ltac:(lia)). lia. }
    assert ((size - size / 2) / 2 <= size / 2 /\ size / 2 / 2 <= size / 2) as (Hd4 & Hd5).
    { split; apply Nat.div_le_upper_bound; lia. }
    set (h := size / 2) in *.
    rewrite <- (firstn_skipn h xs).
    assert (length (firstn h xs) = h) as H1 by (rewrite firstn_length; lia).
    assert (length (skipn h xs) = size - h) as H2 by (rewrite skipn_length; lia).
    set (X := firstn h xs) in *. set (Y := skipn h xs) in *. clearbody X Y. clearbody h.
    apply wp_bind. reshape (pre ++ map Val X ++ (map Val Y ++ mid) ++ map Val B ++ post).
    eapply wp_mono. { apply IH; auto; try lia. lensr. }
    intros u m1 (X' & B1 & -> & HP1 & HB1). cbv beta. clear u.
    pose proof (Permutation_length HP1) as L1. pose proof (Permutation_length HB1) as L2.
    apply wp_bind. reshape ((pre ++ map Val X') ++ map Val Y ++ mid ++ map Val B1 ++ post).
    eapply wp_mono. { apply IH; auto; try lia. lensr. }
    intros u m2 (Y' & B2 & -> & HP2 & HB2). cbv beta. clear u.
    pose proof (Permutation_length HP2) as L3. pose proof (Permutation_length HB2) as L4.
    assert (Permutation (X ++ Y) (X' ++ Y')) as HP by (apply Permutation_app; auto).
    assert (Permutation B B2) as HPB by (etransitivity; eauto).
    apply wp_bind.
    apply wp_mono with (Q := fun '(g, k) m => exists O L, m = (pre ++ map Val X') ++ map Val Y' ++ mid ++ map Val B2 ++ post /\
      X' = O ++ L /\ g = f + length O /\ k = length L).
    { assert (exists y Y'', Y' = y :: Y'') as (y & Y'' & ->) by (destruct Y'; eauto; simpl in *; lia).
      apply wp_loop' with (I := fun '(g, k) m => exists O L, m = (pre ++ map Val X') ++ map Val (y :: Y'') ++ mid ++ map Val B2 ++ post /\
        X' = O ++ L /\ g = f + length O /\ k = length L) (mu := fun '(g, k) => k).
      - exists [], X'. cj; auto; lensr.
      - lia.
      - intros [g k] m (O & L & -> & -> & -> & ->). destruct (Nat.eqb_spec (f + length O) (f + h)) as [E|E].
        { apply wp_ret. exists O, L. cj; auto. }
        destruct L as [|x L]; [lensr|].
        apply wp_bind. apply (wp_less_at comp proj _ _ y x).
        + simpl. apply nth_at. lensr.
        + replace ((pre ++ map Val (O ++ x :: L)) ++ map Val (y :: Y'') ++ mid ++ map Val B2 ++ post)
            with ((pre ++ map Val O) ++ Val x :: map Val L ++ map Val (y :: Y'') ++ mid ++ map Val B2 ++ post) by solve_app.
          apply nth_at. lensr.
        + destruct (lt y x) eqn:Eyx; simpl negb; cbv iota; apply wp_ret.
          * exists O, (x :: L). cj; auto.
          * split; [|simpl; lia]. exists (O ++ [x]), L. cj; auto; try (lensr; fail). { solve_app. } }
    intros [g k] m (O & L & -> & -> & -> & ->). cbv beta iota.
    destruct (Nat.eqb_spec (f + length O) (f + h)) as [E|E].
    { apply wp_ret. assert (L = []) as -> by (destruct L; auto; lensr). rewrite app_nil_r in *.
      exists (O ++ Y'), B2. cj; auto. solve_app. }
    unfold internal_buffered_inplace_merge. apply wp_bind.
    assert (length L <= length B2) as HLB by lensr.
    rewrite <- (firstn_skipn (length L) B2) in HPB |- *.
    assert (length (firstn (length L) B2) = length L) as H3 by (rewrite firstn_length; lia).
    set (C := firstn (length L) B2) in *. set (D := skipn (length L) B2) in *. clearbody C D.
    unfold swap_ranges_inner.
    apply wp_bind, wp_assert. { apply Nat.leb_le. lensr. }
    apply wp_bind, wp_assert. { apply negb_true_iff, andb_false_iff. right. apply Nat.ltb_ge. lensr. }
    apply wp_bind, wp_assert. { apply negb_true_iff, andb_false_iff. right. apply Nat.leb_gt. lensr. }
    reshape ((pre ++ map Val O) ++ map Val L ++ (map Val Y' ++ mid) ++ map Val C ++ map Val D ++ post).
    apply swap_ranges_wp; try (lensr; fail).
    reshape ((pre ++ map Val O) ++ map Val (C ++ Y') ++ mid ++ map Val L ++ map Val D ++ post).
    eapply wp_mono. { apply half_merge_any; auto; lensr. }
    intros u m' (ys & C' & -> & HPy & HPC). exists (O ++ ys), (C' ++ D). cj.
    + solve_app.
    + etransitivity; [exact HP|]. rewrite <- app_assoc. apply Permutation_app_head. exact HPy.
    + etransitivity; [exact HPB|]. apply Permutation_app_tail. exact HPC.
Qed.

(** The selection for random-access iterators needs asymmetry. *)
Lemma nth_element_any : forall cat f l k m, (cat = RandomAccess -> forall x y, lt x y = true -> lt y x = false) -> full f l m -> k < l - f ->
  wp (nth_element comp proj cat f l k (l - f)) (fun r m' => r = f + k /\ pm f l m m') m.
Proof.
  intros cat f l k m HA Hf Hk.
  assert (forall bidi, wp (introselect comp proj bidi f l k (l - f)) (fun r m' => r = f + k /\ pm f l m m') m) as HI.
  { intros bidi. unfold introselect. eapply wp_mono; [apply introselect_loop_wp; auto; lia|]. intros r m' (H1 & H2 & H3). auto. }
  destruct cat; [apply HI|apply HI|]. unfold nth_element, median_of_ninthers_select.
  destruct (Nat.eqb_spec (f + k) l); [lia|]. apply wp_bind. replace (f + k - f) with k by lia.
  eapply wp_mono; [apply (adaptive_quickselect_wp comp proj (HA eq_refl)); auto; try lia|]. { replace (f + (l - f)) with l by lia. auto. }
  replace (f + (l - f)) with l by lia. intros u m' (HP & _). apply wp_ret. auto.
Qed.

Lemma quick_merge_sort_any : forall cat pre xs post, (cat = RandomAccess -> forall x y, lt x y = true -> lt y x = false) ->
  wp (quick_merge_sorter comp proj cat (length pre) (length pre + length xs)) (fun _ m' => exists ys,
    m' = pre ++ map Val ys ++ post /\ Permutation xs ys) (pre ++ map Val xs ++ post).
Proof.
  intros cat pre xs post HA. unfold quick_merge_sorter, quick_merge_sort. cbv zeta.
  set (bidi := match cat with Forward => false | _ => true end). apply wp_bind.
  set (l := length pre + length xs). replace (l - length pre) with (length xs) by (unfold l; lia).
  apply wp_mono with (Q := fun g m => exists O rest, m = pre ++ map Val (O ++ rest) ++ post /\ g = length pre + length O /\
    Permutation xs (O ++ rest)).
  { apply wp_loop' with (I := fun '(g, n) m => exists O rest, m = pre ++ map Val (O ++ rest) ++ post /\ g = length pre + length O /\
      n = length rest /\ Permutation xs (O ++ rest))
      (mu := fun '(g, n) => n).
    - exists [], xs. cj; auto; lensr.
    - lia.
    - intros [g n] m (O & rest & -> & Hg & -> & HP). unfold qmsort_limit.
      pose proof (Permutation_length HP) as HL. rewrite app_length in HL.
      destruct (Nat.ltb_spec 32 (length rest)) as [Hn|Hn].
      + set (k := 2 * (length rest / 3) - 2).
        assert (0 < k < length rest /\ k / 2 <= length rest - k) as [Hk1 Hk2].
        { pose proof (Nat.div_mod (length rest) 3 ltac:(lia)). pose proof (Nat.mod_upper_bound (length rest) 3 ltac:(lia)).
          assert (length rest / 3 >= 10) by (apply Nat.div_le_lower_bound; lia).
          split; [lia|]. apply Nat.div_le_upper_bound; lia. }
        clearbody k. apply wp_bind.
        reshape ((pre ++ map Val O) ++ map Val rest ++ post).
        replace (length rest) with (l - g) by lia.
        assert (l = length (pre ++ map Val O) + length rest) as El by lensr.
        assert (g = length (pre ++ map Val O)) as Eg by lensr.
        eapply wp_mono.
        { apply nth_element_any; auto; [|lia]. rewrite El, Eg. apply full_init. }
        intros r m1 (-> & HPm). rewrite El, Eg in HPm. apply pm_decomp in HPm as (rest' & -> & HPr).
        rewrite <- (firstn_skipn k rest') in HPr |- *.
        pose proof (Permutation_length HPr) as HLr. rewrite app_length in HLr.
        assert (length (firstn k rest') = k) as H1.
        { rewrite firstn_skipn in HPr. apply Permutation_length in HPr. rewrite firstn_length. lia. }
        set (X := firstn k rest') in *. set (Y := skipn k rest') in *. clearbody X Y. clear rest'.
        apply wp_bind. reshape ((pre ++ map Val O) ++ map Val X ++ [] ++ map Val Y ++ post).
        eapply wp_mono. { apply (internal_mergesort_any bidi (S k) (pre ++ map Val O) X [] Y post); auto; try lia; simpl length; lia. }
        intros u m2 (X' & Y' & -> & HPX & HPY). apply wp_ret. split; [|lia].
        pose proof (Permutation_length HPX) as LX. pose proof (Permutation_length HPY) as LY.
        exists (O ++ X'), Y'. cj.
        * solve_app.
        * destruct cat; lensr.
        * lia.
        * etransitivity; [exact HP|]. rewrite <- app_assoc. apply Permutation_app_head. etransitivity; [exact HPr|].
          apply Permutation_app; auto.
      + apply wp_ret. exists O, rest. cj; auto. }
  intros g m (O & rest & -> & -> & HP). cbv beta.
  pose proof (Permutation_length HP) as HL. rewrite app_length in HL.
  reshape ((pre ++ map Val O) ++ map Val rest ++ post).
  replace (length pre + length O) with (length (pre ++ map Val O)) by lensr.
  replace l with (length (pre ++ map Val O) + length rest) by lensr.
  eapply wp_mono; [apply small_sort_wp; [lia|apply full_init]|].
  intros u m' [HPm _]. apply pm_decomp in HPm as (rest' & -> & HPr). exists (O ++ rest'). cj.
  - solve_app.
  - etransitivity; [exact HP|]. apply Permutation_app_head. auto.
Qed.
End QuickMergeAny.

Lemma quick_merge_permutes : forall A T (comp : T -> T -> bool) (proj : A -> T) cat,
  (cat = RandomAccess -> forall x y, by_proj comp proj x y = true -> by_proj comp proj y x = false) ->
  permutes (quick_merge_sorter comp proj cat).
Proof.
  intros A T comp proj cat HA pre xs post. pose proof (quick_merge_sort_any comp proj cat pre xs post HA) as H.
  apply wp_ok in H as ([] & m' & E & ys & -> & HP). exists ys. auto.
Qed.
