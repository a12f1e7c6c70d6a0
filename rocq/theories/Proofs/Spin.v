(** spin_sorter. *)
From Coq Require Import List Arith Lia Permutation Bool.
From Verif Require Import Spec.Order Lang.Mem Spec.Sorts Spec.Verge Spec.Spin Proofs.Wp Proofs.OrderLib Model.Rotate Model.Indirect Proofs.Indirect Proofs.Search Proofs.Regions Proofs.Stable
  Proofs.BufMerge Model.Insertion Proofs.Insertion Model.Select Proofs.Select Model.Merge Model.Spin Proofs.SpinMerge Proofs.SpinHalf Proofs.SpinInsert Proofs.SpinRange.
Import ListNotations.
Local Arguments nth_error : simpl never.
Local Arguments upd : simpl never.
Local Arguments Nat.leb : simpl never.
Local Arguments Nat.ltb : simpl never.
Local Arguments Nat.eqb : simpl never.
Local Arguments Nat.div : simpl never.
Local Arguments Nat.sub : simpl never.

Section Buffer.
Context {A : Type}.
Implicit Types (m : mem A).

(** A move to raw cells. *)
Lemma uninitialized_move_region : forall xs m f l r (Q : nat -> mem A -> Prop), seg m f xs -> l = f + length xs -> raws r (length xs) m -> r + length xs <= length m ->
  (forall m', seg m' r xs -> lives m' f (length xs) -> only (fun i => within f (length xs) i \/ within r (length xs) i) m m' -> Q (r + length xs) m') ->
  wp (uninitialized_move f l r) Q m.
Proof.
  intros xs m f l r Q [HL HS] -> HR HB HQ. eapply uninitialized_move_wp; eauto. intros m' HL' HM HV HO. apply HQ.
  - split; auto. lia.
  - split; [lia|]. intros i Hi. specialize (HM (i - f) ltac:(lia)). replace (f + (i - f)) with i in HM by lia. exists Moved. split; auto. discriminate.
  - split; [auto|]. intros i Hi. apply HO; unfold within in Hi; lia.
Qed.

(** The end: the buffer is released. *)
Lemma release_region : forall pre xs post ys n m' (Q : unit -> mem A -> Prop), let m := pre ++ map Val xs ++ post in
  only (fun i => within (length pre) (length xs) i \/ within (length m) n i) (m ++ repeat Raw n) m' -> seg m' (length pre) ys -> length ys = length xs -> lives m' (length m) n ->
  Q tt (pre ++ map Val ys ++ post) -> wp (destroy_n (length m) n ;; dealloc (length m) n) Q m'.
Proof.
  intros pre xs post ys n m' Q m [HL HO] [HB HS] HLy [HB2 HV] HQ. apply wp_bind. eapply destroy_n_wp. { intros t Ht. apply HV. lia. }
  intros m2 L2 HR HF.
  assert (HLm : length m = length pre + length xs + length post) by (unfold m; rewrite !app_length, map_length; lia).
  assert (E : m2 = (pre ++ map Val ys ++ post) ++ repeat Raw n).
  { apply nth_ext. intros i. rewrite app_length, repeat_length in HL. destruct (Nat.lt_ge_cases i (length m)) as [Hi|Hi].
    - rewrite HF by lia. rewrite nth_error_app1 by (rewrite !app_length, map_length; lia).
      destruct (Nat.lt_ge_cases i (length pre)). { rewrite HO by (unfold within; lia). rewrite nth_error_app1 by lia. unfold m. now rewrite !nth_error_app1. }
      rewrite (nth_error_app2 pre) by lia. destruct (Nat.lt_ge_cases i (length pre + length xs)).
      + destruct (nth_some _ ys (i - length pre)) as (y & Hy); [lia|]. rewrite nth_error_app1 by (rewrite map_length; lia). rewrite nth_error_map, Hy. cbn. rewrite <- (HS _ _ Hy). f_equal. lia.
      + rewrite HO by (unfold within; lia). rewrite nth_error_app1 by lia. unfold m. rewrite (nth_error_app2 pre), !nth_error_app2 by (rewrite ?map_length; lia). rewrite !map_length. f_equal. lia.
    - rewrite nth_error_app2 by (rewrite !app_length, map_length; lia). rewrite !app_length, map_length. destruct (Nat.lt_ge_cases i (length m + n)).
      + specialize (HR (i - length m) ltac:(lia)). replace (length m + (i - length m)) with i in HR by lia. rewrite HR. symmetry. apply nth_error_repeat. lia.
      + transitivity (@None (cell A)); [|symmetry]; apply nth_error_None; rewrite ?repeat_length; lia. }
  rewrite E. apply wp_dealloc; auto. rewrite !app_length, map_length. lia.
Qed.
End Buffer.

Section Spin.
Context {A T : Type} (comp : T -> T -> bool) (proj : A -> T).
Local Notation lt := (by_proj comp proj).
Implicit Types (m : mem A).
Hypothesis HC : strict_weak_order comp.
Let HW : strict_weak_order lt := swo_by_proj _ _ comp proj HC.

Lemma nlevel_odd : forall n, 72 < n -> n < 1024 -> level_odd (Nat.log2 ((n + 36 - 1) / 36 - 1)) = false -> 145 <= n <= 288 \/ 577 <= n <= 1023.
Proof.
  intros n H1 H2 HO. set (k := (n + 36 - 1) / 36) in *.
  assert (HK : 36 * k <= n + 35 < 36 * k + 36).
  { unfold k. pose proof (Nat.div_mod (n + 36 - 1) 36 ltac:(lia)). pose proof (Nat.mod_upper_bound (n + 36 - 1) 36 ltac:(lia)). lia. }
  clearbody k.
  assert (HL : forall a j, 2 ^ a <= j < 2 ^ S a -> Nat.log2 j = a) by (intros; apply Nat.log2_unique; lia).
  destruct (Nat.lt_ge_cases (k - 1) 4). { rewrite (HL 1) in HO by (simpl; lia). discriminate. }
  destruct (Nat.lt_ge_cases (k - 1) 8). { left. lia. }
  destruct (Nat.lt_ge_cases (k - 1) 16). { rewrite (HL 3) in HO by (simpl; lia). discriminate. }
  right. lia.
Qed.

Lemma spin_wp : forall pre xs post, ~ swapped_halves lt xs ->
  wp (spin_sorter comp proj (length pre) (length pre + length xs)) (fun _ m' => m' = pre ++ map Val (ssort lt xs) ++ post) (pre ++ map Val xs ++ post).
Proof.
  intros pre xs post HT. unfold spin_sorter, spinsort. set (f := length pre). set (n := length xs). set (m := pre ++ map Val xs ++ post).
  replace (f + n - f) with n by lia.
  assert (HS : seg m f xs) by (apply seg_intro; auto).
  destruct (Nat.leb_spec n (36 * 2)) as [H|H].
  { destruct (insertion_sorts_stably comp proj HC pre xs post) as (zs & E & P1 & P2 & P3). eapply wp_run; [exact E|]. rewrite (stable_is_ssort lt HW xs zs); auto. }
  set (n1 := (n + 1) / 2). set (n2 := n - n1).
  assert (HN : n1 + n2 = n /\ (n1 = n2 \/ n1 = S n2)).
  { unfold n1, n2. pose proof (Nat.div_mod (n + 1) 2 ltac:(lia)). pose proof (Nat.mod_upper_bound (n + 1) 2 ltac:(lia)). lia. }
  assert (HLm : length m = f + n + length post) by (unfold m, f, n; rewrite !app_length, map_length; lia).
  apply wp_bind, wp_alloc. set (m0 := m ++ repeat Raw n1).
  assert (HL0 : length m0 = length m + n1) by (unfold m0; now rewrite app_length, repeat_length).
  assert (HS0 : seg m0 f xs). { destruct HS as [HB HS]. split; [lia|]. intros i x Hx. unfold m0. rewrite nth_error_app1; auto. apply nth_lt in Hx. fold n in HB, Hx. lia. }
  assert (HR0 : raws (length m) n1 m0). { intros t Ht. unfold m0. rewrite nth_error_app2 by lia. replace (length m + t - length m) with t by lia. now apply nth_error_repeat. }
  set (B := length m) in *.
  pose proof (fun HS1 => nlevel_odd n ltac:(lia) HS1) as HLO.
  assert (HLV : 0 < Nat.log2 ((n + 36 - 1) / 36 - 1)). { apply Nat.log2_pos. assert (3 <= (n + 36 - 1) / 36) by (apply Nat.div_le_lower_bound; lia). lia. }
  set (lv := Nat.log2 _) in *. clearbody lv.
  apply wp_bind, wp_assert. { destruct (Nat.eqb_spec lv 0); [lia|auto]. }
  assert (HEND : forall m', seg m' f (ssort lt xs) -> lives m' B n1 -> only (fun i => within f n i \/ within B n1 i) m0 m' ->
     wp (destroy_n B n1 ;; dealloc B n1) (fun _ m' => m' = pre ++ map Val (ssort lt xs) ++ post) m').
  { intros m' S1 L1 O1. eapply release_region with (ys := ssort lt xs); eauto. apply ssort_length. }
  apply wp_bind. destruct (level_odd lv) eqn:EO.
  - rewrite <- (firstn_skipn n2 xs) in HS0. cbn [fst snd].
    assert (E1 : length (firstn n2 xs) = n2) by (rewrite firstn_length; fold n; lia). assert (E2 : length (skipn n2 xs) = n1) by (rewrite skipn_length; fold n; lia).
    assert (EX : xs = firstn n2 xs ++ skipn n2 xs) by (now rewrite firstn_skipn).
    set (x1 := firstn n2 xs) in *. set (x2 := skipn n2 xs) in *. clearbody x1 x2.
    apply seg_app in HS0 as [S1 S2]. rewrite E1 in S2.
    apply wp_bind. eapply uninitialized_move_region; [exact S2|lia|now rewrite E2|lia|]. rewrite E2. intros m1 S3 L3 O3.
    apply wp_bind. eapply (range_sort_region comp proj HC) with (xs := x2); rewrite ?E2; try lia. { unfold apart. lia. } { rewrite EO. split; [exact S3|exact L3]. }
    intros m2 S4 L4 O4. assert (S1' : seg m2 f x1). { eapply seg_only; [exact O4|rewrite E1; unfold within; lia|]. eapply seg_only; [exact O3|rewrite E1; unfold within; lia|exact S1]. }
    apply wp_bind. eapply (range_sort_region comp proj HC) with (xs := x1); rewrite ?E1; try lia. { unfold apart. lia. } { rewrite EO. split; [exact S1'|]. eapply lives_sub; [exact L4|lia|lia]. }
    intros m3 S5 L5 O5.
    eapply (merge_half_region comp proj HC); [apply (ssort_sorted lt HW x1)|apply (ssort_sorted lt HW x2)|exact S5|eapply seg_only; [exact O5| |exact S4]|..]; rewrite ?ssort_length, ?E1, ?E2; try lia.
    { unfold within; lia. } { exact L5. } { unfold apart. lia. }
    replace (n2 + n1) with n by lia. intros m4 S6 L6 O6. apply HEND.
    + rewrite <- (merge_sorted_eq lt HW), (merge_ssort lt HW), <- EX in S6 by (apply ssort_sorted; auto). exact S6.
    + eapply lives_keep; [|exact O6|exact L6|unfold within; lia]. eapply lives_keep; [exact L4|exact O5|apply seg_lives in S5; rewrite ssort_length in S5; exact S5|rewrite E1; unfold within; lia].
    + eapply only_trans; [eapply only_weaken; [exact O3|unfold within; lia]|]. eapply only_trans; [eapply only_weaken; [exact O4|unfold within; lia]|].
      eapply only_trans; [eapply only_weaken; [exact O5|unfold within; lia]|]. eapply only_weaken; [exact O6|unfold within; lia].
  - assert (HT' : forall x y, n = S (2 * n2) -> n < 1024 -> nth_error (ssort lt (firstn n1 xs)) 0 = Some x -> nth_error (ssort lt (skipn n1 xs)) (n2 - 1) = Some y -> lt y x = false).
    { intros x y HN1 HN2 Hx Hy. destruct (lt y x) eqn:E; auto. exfalso. apply HT. unfold swapped_halves. fold n. fold n1. cj.
      - rewrite HN1. rewrite Nat.odd_succ, Nat.even_mul. reflexivity.
      - specialize (HLO HN2 eq_refl). lia.
      - intros u v Hu Hv. eapply Permutation_in in Hu; [|apply (ssort_perm lt)]. eapply Permutation_in in Hv; [|apply (ssort_perm lt)].
        assert (HLs : length (ssort lt (skipn n1 xs)) = n2) by (rewrite ssort_length, skipn_length; fold n; lia).
        apply (le_lt_trans lt HW) with y; [|apply (lt_le_trans lt HW) with x; auto].
        + apply In_nth_error in Hv as (j & Hv). destruct (Nat.eq_dec j (n2 - 1)) as [->|]. { replace v with y by congruence. apply le_refl; auto. }
          apply (ssort_sorted lt HW (skipn n1 xs) j (n2 - 1)); auto. apply nth_lt in Hv. lia.
        + apply In_nth_error in Hu as (j & Hu). destruct j as [|j]. { replace u with x by congruence. apply le_refl; auto. }
          apply (ssort_sorted lt HW (firstn n1 xs) 0 (S j)); auto. lia. }
    rewrite <- (firstn_skipn n1 xs) in HS0. cbn [fst snd].
    assert (E1 : length (firstn n1 xs) = n1) by (rewrite firstn_length; fold n; lia). assert (E2 : length (skipn n1 xs) = n2) by (rewrite skipn_length; fold n; lia).
    assert (EX : xs = firstn n1 xs ++ skipn n1 xs) by (now rewrite firstn_skipn).
    set (x1 := firstn n1 xs) in *. set (x2 := skipn n1 xs) in *. clearbody x1 x2.
    apply seg_app in HS0 as [S1 S2]. rewrite E1 in S2.
    apply wp_bind. eapply uninitialized_move_region; [exact S1|lia|now rewrite E1|lia|]. rewrite E1. intros m1 S3 L3 O3.
    apply wp_bind. eapply (range_sort_region comp proj HC) with (xs := x1); rewrite ?E1; try lia. { unfold apart. lia. } { rewrite EO. split; [exact S3|exact L3]. }
    intros m2 S4 L4 O4. assert (S2' : seg m2 (f + n1) x2). { eapply seg_only; [exact O4|rewrite E2; unfold within; lia|]. eapply seg_only; [exact O3|rewrite E2; unfold within; lia|exact S2]. }
    apply wp_bind. eapply (range_sort_region comp proj HC) with (xs := x2); rewrite ?E2; try lia. { unfold apart. lia. } { rewrite EO. split; [exact S2'|]. eapply lives_sub; [exact L4|lia|lia]. }
    intros m3 S5 L5 O5.
    eapply (merge_half_region comp proj HC); [apply (ssort_sorted lt HW x1)|apply (ssort_sorted lt HW x2)|eapply seg_only; [exact O5| |exact S4]|exact S5|..]; rewrite ?ssort_length, ?E1, ?E2; try lia.
    { unfold within; lia. } { eapply lives_keep; [exact L4|exact O5|exact L5|unfold within; lia]. } { unfold apart. lia. }
    { destruct (proj2 HN) as [E|E]; [left; lia|right]. split; auto. destruct (Nat.lt_ge_cases n 1024); [right|left; lia].
      destruct (nth_some _ (ssort lt x1) 0) as (x & Hx); [rewrite ssort_length; lia|]. destruct (nth_some _ (ssort lt x2) (n2 - 1)) as (y & Hy); [rewrite ssort_length; lia|].
      exists x, y. cj; auto. apply HT'; auto. lia. }
    replace (n1 + n2) with n by lia. intros m4 S6 L6 O6. apply HEND.
    + rewrite <- (merge_sorted_eq lt HW), (merge_ssort lt HW), <- EX in S6 by (apply ssort_sorted; auto). exact S6.
    + exact L6.
    + eapply only_trans; [eapply only_weaken; [exact O3|unfold within; lia]|]. eapply only_trans; [eapply only_weaken; [exact O4|unfold within; lia]|].
      eapply only_trans; [eapply only_weaken; [exact O5|unfold within; lia]|]. eapply only_weaken; [exact O6|unfold within; lia].
Qed.

Lemma spin_sorts_stably_when : sorts_stably_when (fun xs => ~ swapped_halves lt xs) lt (spin_sorter comp proj).
Proof.
  intros pre xs post HT. pose proof (spin_wp pre xs post HT) as H. apply wp_ok in H as ([] & m & E & ->).
  eexists. split; [exact E|]. apply ssort_stable; auto.
Qed.
End Spin.
