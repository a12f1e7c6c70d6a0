(** wiki_sort: the levels and the sorter. *)
From Coq Require Import List Arith ZArith Lia Permutation Bool.
From Verif Require Import Spec.Order Lang.Mem Spec.Sorts Spec.Verge Proofs.Wp Proofs.OrderLib Proofs.MergeLib Proofs.Rotate Proofs.Stable Proofs.SlabMel Proofs.HalfMerge Proofs.Regions Model.Insertion Model.Counting Model.Bitops Proofs.Bitops Model.Grail
  Proofs.SpinMerge Model.Wiki Proofs.WikiFind Proofs.WikiMerge Proofs.WikiLevels Proofs.WikiSearch Proofs.WikiRows.
Import ListNotations.
Local Open Scope nat_scope.
Local Arguments nth_error : simpl never.
Local Arguments Nat.leb : simpl never.
Local Arguments Nat.ltb : simpl never.
Local Arguments Nat.eqb : simpl never.
Local Arguments Nat.mul : simpl never.
Local Arguments Nat.add : simpl never.
Local Arguments Nat.sub : simpl never.
Local Arguments Nat.pow : simpl never.

Section Sort.
Context {A T : Type} (comp : T -> T -> bool) (proj : A -> T) (triv trivial : bool) (junk : nat -> nat * nat * nat * nat).
Local Notation lt := (by_proj comp proj).
Implicit Types (m : mem A).
Hypothesis HC : strict_weak_order comp.
Let HW : strict_weak_order lt := swo_by_proj _ _ comp proj HC.

Section Levels.
Variables (n d f cb K : nat) (xs : list A).
Hypothesis Hd : 0 < d.
Hypothesis Hn : d <= n.
Hypothesis HL : length xs = n.
Hypothesis AP : apart f n cb K.
Hypothesis H15 : 15 <= n.
Hypothesis HT : trivial = true \/ K <= n / d.
Variable m0 : mem A.
Notation level := (level comp proj n d f cb K xs m0).

Lemma level_wp : forall k c m (Q : unit -> mem A -> Prop), c * (2 * k) = d -> level m k (2 * c) -> (forall m', level m' (2 * k) c -> Q tt m') ->
  wp (merge_level comp proj triv junk f n d (k * n / d) (k * n mod d) cb K) Q m.
Proof.
  intros k c m Q HD [[HB LC] HR] HQ. assert (2 * c * k = d) as HD' by lia.
  eapply (merge_level_wp comp proj triv HC n d f k c (fun j => ssort lt (chunk n d xs k j)) Hd Hn HD); [|exact AP| |exact LC|].
  - intros j Hj. split; [apply (ssort_sorted lt HW)|]. unfold cs. pose proof (row_len comp proj n d xs Hd Hn HL k (2 * c) j HD' Hj). lia.
  - intros j Hj. apply HR. auto.
  - intros m' S1 LC1 O1. apply HQ. split; [split; [eapply only_trans; [exact HB|exact O1]|exact LC1]|]. intros i Hi. unfold row. specialize (S1 i Hi).
    rewrite (chunk_two n d Hd Hn A xs k c i) by auto. rewrite (bd_mul n d Hd Hn). rewrite <- (ssort_app_both comp proj HC). exact S1.
Qed.

Lemma merge_levels_wp : forall a m (Q : unit -> mem A -> Prop), d = 2 * 2 ^ a -> level m 1 d -> (forall m', level m' d 1 -> Q tt m') ->
  wp (merge_levels comp proj triv trivial junk f n d cb K (n / d, n mod d)) Q m.
Proof.
  intros a0 m Q Ha HLv HQ. unfold merge_levels.
  apply wp_loop' with (I := fun s m1 => exists k a, s = st d (k * n) /\ 2 * 2 ^ a * k = d /\ level m1 k (2 * 2 ^ a)) (mu := fun s => n - fst s).
  - exists 1, a0. rewrite <- Ha. unfold st. rewrite Nat.mul_1_l. cj; auto; lia.
  - simpl. lia.
  - intros s m1 (k & a & -> & HD & LV). unfold st at 1. assert (0 < k) as Hk by nia.
    assert (forall u b m2, 2 * k <= u -> 2 ^ b * u = d -> level m2 u (2 ^ b) -> k * n / d < n ->
      wp (if fst (st d (u * n)) <? n then ret (inl (st d (u * n))) else ret (inr tt))
        (fun r m' => match r with inl s' => (exists k a, s' = st d (k * n) /\ 2 * 2 ^ a * k = d /\ level m' k (2 * 2 ^ a)) /\ n - fst s' < n - fst (st d (k * n)) | inr x => Q x m' end) m2) as HE.
    { intros u b m2 Hu HU LV2 Hlt. pose proof (bd_end n d Hd Hn u (2 ^ b) 1 HU) as BE. unfold bd in BE. rewrite Nat.mul_1_l in BE.
      assert (k * n / d + k * n / d <= u * n / d) as HM. { rewrite <- (Nat.div_mul (k * n / d + k * n / d) d) by lia. apply Nat.div_le_mono; [lia|]. pose proof (Nat.mul_div_le (k * n) d ltac:(lia)). nia. }
      pose proof (bd_step_pos n d Hd Hn k Hk) as HP.
      unfold st at 1. simpl fst. destruct b as [|b].
      - replace (2 ^ 0) with 1 in * by reflexivity. simpl in BE. apply Nat.leb_le in BE. replace (u * n / d <? n) with false by (symmetry; apply Nat.ltb_ge; auto). apply wp_ret. apply HQ. rewrite Nat.mul_1_l in HU. rewrite HU in LV2. exact LV2.
      - rewrite Nat.pow_succ_r' in *. pose proof (Nat.pow_nonzero 2 b ltac:(lia)). replace (2 * 2 ^ b <=? 1) with false in BE by (symmetry; apply Nat.leb_gt; lia). apply Nat.leb_gt in BE.
        apply Nat.ltb_lt in BE as BE'. rewrite BE'. apply wp_ret. split; [exists u, b; auto|]. unfold st. simpl fst. lia. }
    assert (k * n / d < n) as Hlt. { pose proof (bd_end n d Hd Hn k (2 * 2 ^ a) 1 HD) as BE. unfold bd in BE. rewrite Nat.mul_1_l in BE. pose proof (Nat.pow_nonzero 2 a ltac:(lia)). replace (2 * 2 ^ a <=? 1) with false in BE by (symmetry; apply Nat.leb_gt; lia). now apply Nat.leb_gt in BE. }
    assert (n / d <= k * n / d) as HKn by (apply Nat.div_le_mono; nia).
    apply wp_bind. destruct (Nat.ltb_spec (k * n / d) K) as [H1|H1].
    + assert (trivial = true) as -> by (destruct HT; [auto|lia]).
      destruct ((k * n / d + 1) * 4 <=? K) eqn:E4; [destruct (Nat.leb_spec (k * n / d * 4) n) as [E4'|E4']|].
      * apply Nat.leb_le in E4. simpl andb. cbv iota. destruct a as [|a].
        { exfalso. replace (2 * 2 ^ 0) with 2 in HD by reflexivity. rewrite <- HD in E4'. rewrite (Nat.mul_comm 2 k), Nat.div_mul_cancel_l in E4' by lia. pose proof (Nat.div_mod n 2 ltac:(lia)). pose proof (Nat.mod_upper_bound n 2 ltac:(lia)). lia. }
        rewrite Nat.pow_succ_r' in *. apply wp_bind. eapply (merge_fours_wp comp proj HC n d f cb K xs Hd Hn HL AP m0 k (2 ^ a)); [lia|exact E4|replace (4 * 2 ^ a) with (2 * (2 * 2 ^ a)) by lia; exact LV|].
        intros m2 LV2. apply wp_ret. change (k * n / d, k * n mod d) with (st d (k * n)). rewrite !next_level_st by auto. replace (k * n + k * n + (k * n + k * n)) with (4 * k * n) by lia.
        apply (HE (4 * k) a); auto; lia.
      * simpl andb. cbv iota. apply wp_bind. eapply (merge_twos_wp comp proj triv HC n d f cb K xs Hd Hn HL AP m0 k (2 ^ a)); [lia|exact H1|exact LV|].
        intros m2 LV2. apply wp_ret. change (k * n / d, k * n mod d) with (st d (k * n)). rewrite !next_level_st by auto. replace (k * n + k * n) with (2 * k * n) by lia. apply (HE (2 * k) a); auto; lia.
      * simpl andb. cbv iota. apply wp_bind. eapply (merge_twos_wp comp proj triv HC n d f cb K xs Hd Hn HL AP m0 k (2 ^ a)); [lia|exact H1|exact LV|].
        intros m2 LV2. apply wp_ret. change (k * n / d, k * n mod d) with (st d (k * n)). rewrite !next_level_st by auto. replace (k * n + k * n) with (2 * k * n) by lia. apply (HE (2 * k) a); auto; lia.
    + apply wp_bind. eapply (level_wp k (2 ^ a)); [lia|exact LV|].
      intros m2 LV2. apply wp_ret. change (k * n / d, k * n mod d) with (st d (k * n)). rewrite !next_level_st by auto. replace (k * n + k * n) with (2 * k * n) by lia. apply (HE (2 * k) a); auto; lia.
Qed.
End Levels.

(** The sizes for which the difference type is wide enough. *)
Definition wide_enough (dt : int_type) (n : nat) : Prop := (Z.of_nat n < 2 ^ (bits dt / 2 + 3))%Z.

Lemma hyperfloor_nat : forall dt j n, signed dt = true -> (3 <= j)%Z -> bits dt = (2 ^ j)%Z -> wide_enough dt n -> 0 < n ->
  exists p, hyperfloor dt (Z.of_nat n) = Some p /\ Z.to_nat p / 4 = 2 ^ Nat.log2 n / 4.
Proof.
  intros dt j n HS Hj HB HN Hn. unfold wide_enough in HN. destruct (hyperfloor_quarter dt j ltac:(lia) HB (Z.of_nat n) HS) as (r & E & Hr & Hq); [|lia|lia|].
  - apply fits_small. split; [lia|]. unfold digits. rewrite HS. eapply Z.lt_le_trans; [exact HN|]. apply Z.pow_le_mono_r; [lia|]. rewrite HB, (half_width dt j ltac:(lia) HB).
    rewrite Z.mul_comm, Z.div_mul by lia. pose proof (Z.pow_le_mono_r 2 2 (j - 1) ltac:(lia) ltac:(lia)) as H4. change (2 ^ 2)%Z with 4%Z in H4. lia.
  - exists r. split; auto. apply Nat2Z.inj. rewrite !Nat2Z.inj_div, Z2Nat.id by auto. rewrite Nat2Z.inj_pow. change (Z.of_nat 4) with 4%Z. change (Z.of_nat 2) with 2%Z. rewrite Hq. f_equal. f_equal.
    apply Z.log2_unique; [lia|]. pose proof (Nat.log2_spec n Hn) as [L1 L2]. apply Nat2Z.inj_le in L1. apply Nat2Z.inj_lt in L2. rewrite Nat2Z.inj_pow in L1, L2. change (Z.of_nat 2) with 2%Z in *. rewrite Nat2Z.inj_succ in L2. split; auto.
Qed.

Section Difference.
Variables (dt : int_type) (j : Z).
Hypothesis HS : signed dt = true.
Hypothesis Hj : (3 <= j)%Z.
Hypothesis HBd : bits dt = (2 ^ j)%Z.

Lemma sort_wp : forall xs f cb K m (Q : unit -> mem A -> Prop), wide_enough dt (length xs) -> trivial = true \/ K <= 4 \/ length xs < 15 -> apart f (length xs) cb K -> seg m f xs -> lives m cb K ->
  (forall m', seg m' f (ssort lt xs) -> lives m' cb K -> only (fun i => within f (length xs) i \/ within cb K i) m m' -> Q tt m') ->
  wp (sort comp proj triv trivial junk dt f (f + length xs) cb K) Q m.
Proof.
  intros xs f cb K m Q HWd HT AP SX LC HQ. unfold sort. replace (f + length xs - f) with (length xs) by lia. destruct (Nat.ltb_spec (length xs) 15) as [H|H].
  - eapply (insertion_sort_region comp proj HC xs); [exact SX|auto|]. intros m1 S1 O1. apply HQ; [exact S1|keep O1 LC|]. eapply only_weaken; [exact O1|]. auto.
  - remember (length xs) as n eqn:En. remember (Nat.log2 n - 3) as a eqn:Ea.
    pose proof (Nat.log2_spec n ltac:(lia)) as [L1 L2]. assert (3 <= Nat.log2 n) as L3 by (change 3 with (Nat.log2 15); apply Nat.log2_le_mono; lia).
    destruct (hyperfloor_nat dt j n HS Hj HBd HWd ltac:(lia)) as (p & Ep & ED0). rewrite Ep.
    assert (Z.to_nat p / 4 = 2 * 2 ^ a) as ED.
    { rewrite ED0. replace (Nat.log2 n) with (2 + S a) by lia. rewrite Nat.pow_add_r. replace (2 ^ 2) with 4 by reflexivity. rewrite Nat.mul_comm, Nat.div_mul by lia. apply Nat.pow_succ_r'. }
    assert (2 ^ Nat.log2 n = 8 * 2 ^ a) as E2 by (replace (Nat.log2 n) with (3 + a) by lia; rewrite Nat.pow_add_r; reflexivity). rewrite Nat.pow_succ_r' in L2. rewrite E2 in *. clear E2 L3.
    pose proof (Nat.pow_nonzero 2 a ltac:(lia)) as HP. rewrite ED. remember (2 * 2 ^ a) as d eqn:Edd.
    assert (0 < d) as Hd by lia. assert (d <= n) as Hn by lia. assert (4 <= n / d) as H4 by (apply Nat.div_le_lower_bound; lia).
    assert (base n f cb K m m) as HB by (split; [apply only_refl|exact LC]).
    apply wp_bind. eapply (sort_groups_wp comp proj HC n d f cb K xs Hd Hn); [auto|exact AP|exact HB|exact SX|auto|lia|]. intros m1 LV1.
    eapply (merge_levels_wp n d f cb K xs Hd Hn); [auto|exact AP|lia| |exact Edd|exact LV1|]. { destruct HT as [HT|[HT|HT]]; auto; [right; lia|lia]. }
    intros m2 [[O2 LC2] R2]. apply HQ; auto. specialize (R2 0 ltac:(lia)). unfold row in R2. rewrite (chunk_top n d Hd Hn A xs) in R2 by auto. rewrite (bd_0 n d Hd Hn), Nat.add_0_r in R2. exact R2.
Qed.

Lemma wiki_sorter_sorts : forall buffer_size,
  sorts_stably_when (fun xs => wide_enough dt (length xs) /\ (trivial = true \/ buffer_size (length xs) <= 4 \/ length xs < 15)) lt (wiki_sorter comp proj triv trivial junk dt buffer_size).
Proof.
  intros buffer_size pre xs post [HWd HT]. exists (ssort lt xs). split; [|now apply ssort_stable].
  unfold wiki_sorter. replace (length pre + length xs - length pre) with (length xs) by lia. set (n := buffer_size (length xs)) in *.
  match goal with |- ?c _ = _ => assert (wp c (fun _ m => m = pre ++ map Val (ssort lt xs) ++ post) (pre ++ map Val xs ++ post)) as HH end.
  2:{ unfold wp in HH. match type of HH with match ?c with _ => _ end => destruct c as [[] m| |]; try contradiction end. now subst. }
  apply wp_bind. unfold make_buffer, wp at 1. apply wp_bind. set (m := pre ++ map Val xs ++ post). remember (length m) as cb eqn:Ecb.
  assert (cb = length pre + length xs + length post) as Ecb' by (rewrite Ecb; unfold m; rewrite !app_length, map_length; lia).
  eapply (sort_wp xs (length pre) cb n); [exact HWd|exact HT|unfold apart; lia| | |].
  - unfold m. rewrite <- !app_assoc. now apply seg_intro.
  - split; [rewrite app_length, repeat_length; lia|]. intros i Hi. unfold live_at. exists Moved. split; [|discriminate]. rewrite nth_error_app2 by lia. rewrite <- Ecb. apply nth_error_repeat. lia.
  - intros m' S1 LC1 [OL ON]. rewrite app_length, repeat_length in OL.
    assert (exists X, length X = n /\ Forall live X /\ m' = (pre ++ map Val (ssort lt xs) ++ post) ++ X ++ []) as (X & LX & FX & EX).
    { exists (skipn cb m'). cj. { rewrite skipn_length. lia. }
      - apply Forall_forall. intros x Hx. apply In_nth_error in Hx as (i & Hi). assert (i < n) as Hin by (apply nth_lt in Hi; rewrite skipn_length in Hi; lia). rewrite nth_skipn in Hi.
        destruct LC1 as [_ LC1]. destruct (LC1 (cb + i) ltac:(lia)) as (y & E1 & E2). congruence.
      - rewrite app_nil_r. apply seg_decomp in S1 as (p & q & E & Lp). assert (length p = length pre) as Lp' by auto.
        assert (length q = length post + n) as Lq. { rewrite E in OL. rewrite !app_length, map_length, ssort_length in OL. lia. }
        assert (p = pre) as ->.
        { apply list_ext. intros i. destruct (Nat.lt_ge_cases i (length pre)) as [Hi|Hi].
          - specialize (ON i ltac:(win)). rewrite E in ON. unfold m in ON. rewrite <- !app_assoc, !nth_error_app1 in ON by lia. exact ON.
          - rewrite (proj2 (nth_error_None p i)), (proj2 (nth_error_None pre i)); auto; lia. }
        assert (firstn (length post) q = post) as Eq.
        { apply list_ext. intros i. destruct (Nat.lt_ge_cases i (length post)) as [Hi|Hi].
          - specialize (ON (length pre + length xs + i) ltac:(win)). rewrite E in ON. unfold m in ON. rewrite <- !app_assoc in ON.
            rewrite !(nth_error_app2 pre), !(nth_error_app2 (map _ _)), (nth_error_app1 post) in ON by (rewrite ?map_length, ?ssort_length; lia). rewrite !map_length, ssort_length in ON.
            replace (length pre + length xs + i - length pre - length xs) with i in ON by lia. rewrite <- ON. rewrite <- (firstn_skipn (length post) q) at 2. rewrite nth_error_app1; auto. rewrite firstn_length. lia.
          - rewrite !(proj2 (nth_error_None _ _)); auto. rewrite firstn_length. lia. }
        rewrite <- (firstn_skipn (length post) q) in E. rewrite Eq in E. rewrite E. rewrite <- !app_assoc. f_equal. f_equal. f_equal.
        rewrite !app_assoc, (skipn_app cb). rewrite (skipn_all2 (n := cb) ((pre ++ _) ++ post)) by (rewrite !app_length, map_length, ssort_length; lia).
        rewrite !app_length, map_length, ssort_length. replace (cb - (length pre + length xs + length post)) with 0 by lia. reflexivity. }
    subst m'. apply wp_bind. apply destroy_n_seg; [auto|rewrite Ecb', !app_length, !map_length, ssort_length; lia|auto|].
    rewrite LX. rewrite app_nil_r. apply wp_dealloc; [rewrite Ecb', !app_length, !map_length, ssort_length; lia|auto].
Qed.
End Difference.
End Sort.
