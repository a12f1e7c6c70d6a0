(** spreadsort: the arithmetic. *)
From Coq Require Import List Arith ZArith Lia Bool.
From Verif Require Import Lang.Mem Proofs.Wp Model.Counting Model.Spread.
Import ListNotations.
Local Open Scope Z_scope.

Lemma rough_log_from : forall k input result, 0 <= result -> result + Z.of_nat k = 64 -> 0 <= input < 2 ^ 64 -> (result = 0 \/ 2 ^ (result - 1) <= input) ->
  let r := rough_log_2_from k input result in result <= r <= 64 /\ input < 2 ^ r /\ (r = 0 \/ 2 ^ (r - 1) <= input).
Proof.
  induction k as [|k IH]; intros input result H0 HK HI HR; cbn [rough_log_2_from]; cbv zeta.
  - replace result with 64 in * by lia. split; [lia|]. split; [lia|auto].
  - assert (HP : 0 < 2 ^ result) by (apply Z.pow_pos_nonneg; lia). destruct (Z.eqb_spec (input / 2 ^ result) 0) as [E|E].
    + split; [lia|]. split; [|auto]. apply Z.div_small_iff in E; lia.
    + assert (2 ^ result <= input). { destruct (Z.lt_ge_cases input (2 ^ result)); auto. exfalso. apply E. apply Z.div_small. lia. }
      destruct (IH input (result + 1)) as (I1 & I2 & I3); try lia. { right. replace (result + 1 - 1) with result by lia. auto. }
Qed.
Lemma rough_log_spec : forall input, 0 <= input < 2 ^ 64 -> let r := rough_log_2_size input in 0 <= r <= 64 /\ input < 2 ^ r /\ (r = 0 \/ 2 ^ (r - 1) <= input).
Proof. intros input HI. apply rough_log_from; auto; lia. Qed.
Lemma rough_log_le : forall input b, 0 <= input < 2 ^ 64 -> 0 <= b -> input < 2 ^ b -> rough_log_2_size input <= b.
Proof.
  intros input b HI Hb H. destruct (rough_log_spec input HI) as (H1 & H2 & H3). destruct H3 as [->|H3]; auto. destruct (Z.le_gt_cases (rough_log_2_size input) b); auto. exfalso.
  assert (2 ^ b <= 2 ^ (rough_log_2_size input - 1)) by (apply Z.pow_le_mono_r; lia). lia.
Qed.
Lemma rough_log_from_ge : forall k input result, 0 <= result -> result + Z.of_nat k = 64 -> 0 <= input ->
  let r := rough_log_2_from k input result in r = 64 \/ input < 2 ^ r.
Proof.
  induction k as [|k IH]; intros input result H0 HK HI; cbn [rough_log_2_from]; cbv zeta; [left; lia|].
  assert (HP : 0 < 2 ^ result) by (apply Z.pow_pos_nonneg; lia). destruct (Z.eqb_spec (input / 2 ^ result) 0) as [E|E]; [|apply IH; lia]. right. apply Z.div_small_iff in E; lia.
Qed.
(** Whatever the size of the input. *)
Lemma rough_log_ge : forall input b, 0 <= b < 64 -> 2 ^ b <= input -> b < rough_log_2_size input.
Proof.
  intros input b Hb H. assert (HP : 0 < 2 ^ b) by (apply Z.pow_pos_nonneg; lia). destruct (rough_log_from_ge 64 input 0) as [H1|H1]; try lia; change (rough_log_2_from 64 input 0) with (rough_log_2_size input) in H1; [lia|].
  destruct (Z.lt_ge_cases b (rough_log_2_size input)); auto. exfalso.
  assert (2 ^ rough_log_2_size input <= 2 ^ b) by (destruct (Z.le_gt_cases 0 (rough_log_2_size input)); [apply Z.pow_le_mono_r; lia|rewrite (Z.pow_neg_r 2 (rough_log_2_size input)) by lia; lia]). lia.
Qed.

(** The divisor: either everything is in bins of one value, or there are at most 2 ^ 11 + 1 bins. *)
Lemma log_divisor_spec : forall count lr, 1000 <= count -> 0 <= lr <= 64 ->
  let d := get_log_divisor int_log_mean_bin_size count lr in d = 0 /\ lr <= 12 \/ 0 < d <= lr - 8 /\ lr - d <= 11.
Proof.
  intros count lr HC HL. assert (9 < rough_log_2_size count) by (apply rough_log_ge; lia). unfold get_log_divisor, int_log_mean_bin_size, max_finishing_splits, max_splits. cbv zeta.
  set (rl := rough_log_2_size count) in *. destruct (Z.leb_spec (lr - rl) 0), (Z.leb_spec lr (11 + 1)); cbn [andb]; try lia; destruct (Z.ltb_spec 11 (lr - (lr - rl + 2))); lia.
Qed.

Lemma div_range : forall x y lr d, 0 <= d <= lr -> y <= x -> x - y < 2 ^ lr -> 0 <= x / 2 ^ d - y / 2 ^ d <= 2 ^ (lr - d).
Proof.
  intros x y lr d Hd Hxy HR. assert (HP : 0 < 2 ^ d) by (apply Z.pow_pos_nonneg; lia). split.
  - assert (y / 2 ^ d <= x / 2 ^ d) by (apply Z.div_le_mono; lia). lia.
  - assert (x / 2 ^ d <= (y + 2 ^ (lr - d) * 2 ^ d) / 2 ^ d). { apply Z.div_le_mono; auto. rewrite <- Z.pow_add_r by lia. replace (lr - d + d) with lr by lia. lia. }
    rewrite Z.div_add in H by lia. lia.
Qed.
Lemma div_same : forall x y d, 0 <= d -> x / 2 ^ d = y / 2 ^ d -> x - y < 2 ^ d.
Proof.
  intros x y d Hd E. assert (HP : 0 < 2 ^ d) by (apply Z.pow_pos_nonneg; lia). pose proof (Z.div_mod x (2 ^ d) ltac:(lia)). pose proof (Z.div_mod y (2 ^ d) ltac:(lia)).
  pose proof (Z.mod_pos_bound x (2 ^ d) HP). pose proof (Z.mod_pos_bound y (2 ^ d) HP). rewrite E in H. lia.
Qed.
Lemma div_lt : forall x y d, 0 <= d -> x / 2 ^ d < y / 2 ^ d -> x < y.
Proof.
  intros x y d Hd H. assert (HP : 0 < 2 ^ d) by (apply Z.pow_pos_nonneg; lia). destruct (Z.lt_ge_cases x y); auto. exfalso. assert (y / 2 ^ d <= x / 2 ^ d) by (apply Z.div_le_mono; lia). lia.
Qed.

Lemma min_count_ge : forall d, 0 < d <= 64 -> 1000 <= get_min_count int_log_mean_bin_size int_log_min_split_count int_log_finishing_count d.
Proof.
  intros d Hd. assert (HF : forallb (fun i => 1000 <=? get_min_count int_log_mean_bin_size int_log_min_split_count int_log_finishing_count (Z.of_nat i)) (seq 0 65) = true) by (vm_compute; reflexivity).
  rewrite forallb_forall in HF. specialize (HF (Z.to_nat d)). rewrite Z2Nat.id in HF by lia. apply Z.leb_le. apply HF. apply in_seq. lia.
Qed.
