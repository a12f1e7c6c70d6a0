(** The bit operations. *)
From Coq Require Import ZArith Bool Lia.
From Verif Require Import Model.Counting Model.Bitops Proofs.SwapIf.
Local Open Scope Z_scope.

Section Types.
Variable t : int_type.
Hypothesis HB : 1 <= bits t.

Lemma digits_nonneg : 0 <= digits t.
Proof. unfold digits. destruct (signed t); lia. Qed.
Lemma digits_le : digits t <= bits t.
Proof. unfold digits. destruct (signed t); lia. Qed.
Lemma promoted_bits : bits t <= bits (promoted t).
Proof. unfold promoted, int32. destruct (Z.ltb_spec (bits t) 32); cbn [bits]; lia. Qed.
Lemma type_max_digits : type_max t = 2 ^ digits t - 1.
Proof. unfold type_max, digits. now destruct (signed t). Qed.
Lemma type_min_nonpos : type_min t <= 0.
Proof. unfold type_min. pose proof (Z.pow_nonneg 2 (bits t - 1) ltac:(lia)). destruct (signed t); lia. Qed.
Lemma fits_small : forall z, 0 <= z < 2 ^ digits t -> fits t z = true.
Proof. intros z Hz. unfold fits. rewrite andb_true_iff, !Z.leb_le, type_max_digits. pose proof type_min_nonpos. lia. Qed.
Lemma fits_nonneg : forall z, 0 <= z -> fits t z = true -> z < 2 ^ digits t.
Proof. intros z Hz. unfold fits. rewrite andb_true_iff, !Z.leb_le, type_max_digits. lia. Qed.
Lemma convert_small : forall z, 0 <= z < 2 ^ digits t -> convert t z = z.
Proof. intros z Hz. apply convert_id; auto. now apply fits_small. Qed.
Lemma shift_right_ok : forall n i, 0 <= i < bits t -> shift_right t n i = Some (Z.shiftr n i).
Proof.
  intros n i Hi. unfold shift_right. pose proof promoted_bits.
  replace (0 <=? i) with true by (symmetry; apply Z.leb_le; lia). replace (i <? bits (promoted t)) with true by (symmetry; apply Z.ltb_lt; lia). reflexivity.
Qed.
Lemma add_small : forall n d, 0 <= n + d < 2 ^ digits t -> add t n d = Some (n + d).
Proof.
  intros n d Hn. unfold add. pose proof (fits_small _ Hn) as HF. pose proof (fits_promotion t (n + d) HB HF) as HP.
  rewrite HP, convert_small by lia. now destruct (signed (promoted t)).
Qed.

Lemma below : forall n k b, 0 <= n < 2 ^ k -> k <= b -> Z.testbit n b = false.
Proof.
  intros n k b Hn Hb. destruct (Z.eq_dec n 0) as [->|]; [apply Z.bits_0|]. apply Z.bits_above_log2; [lia|].
  apply Z.log2_lt_pow2; [lia|]. assert (0 <= k) by (destruct (Z.le_gt_cases 0 k); auto; rewrite (Z.pow_neg_r 2 k) in Hn by lia; lia).
  pose proof (Z.pow_le_mono_r 2 k b ltac:(lia) ltac:(lia)). lia.
Qed.
Lemma small_bits : forall n k, 0 <= n -> 0 <= k -> (forall b, k <= b -> Z.testbit n b = false) -> n < 2 ^ k.
Proof.
  intros n k Hn Hk H. destruct (Z.eq_dec n 0) as [->|]; [apply Z.pow_pos_nonneg; lia|]. apply Z.log2_lt_pow2; [lia|].
  destruct (Z.le_gt_cases k (Z.log2 n)) as [H1|H1]; auto. pose proof (Z.bit_log2 n ltac:(lia)) as E. rewrite (H _ H1) in E. discriminate.
Qed.

(** [m] is [n] with every bit copied to the [w - 1] positions below it. *)
Definition smeared (n w m : Z) : Prop :=
  0 <= m /\ forall b, 0 <= b -> Z.testbit m b = true <-> exists j, 0 <= j < w /\ Z.testbit n (b + j) = true.

Lemma smeared_small : forall n w m, 0 <= n < 2 ^ digits t -> smeared n w m -> m < 2 ^ digits t.
Proof.
  intros n w m Hn [Hm H]. apply small_bits; auto; [apply digits_nonneg|]. intros b Hb. apply not_true_is_false. intros E. pose proof digits_nonneg.
  apply H in E as (j & Hj & E); [|lia]. rewrite (below n (digits t)) in E; [discriminate|lia|lia].
Qed.

Lemma smear_spec : forall fuel bound n k m, 0 <= n < 2 ^ digits t -> 0 <= k -> bound < bits t -> bound < 2 ^ (k + Z.of_nat fuel) -> smeared n (2 ^ k) m ->
  exists k' m', smear (S fuel) t bound (2 ^ k) m = Some m' /\ k <= k' /\ bound < 2 ^ k' /\ (k' = k \/ 2 ^ (k' - 1) <= bound) /\ smeared n (2 ^ k') m'.
Proof.
  intros fuel bound n. induction fuel as [|fuel IH]; intros k m Hn Hk HBd HF HS.
  - rewrite Z.add_0_r in HF. exists k, m. simpl. replace (2 ^ k <=? bound) with false by (symmetry; apply Z.leb_gt; lia). cut (k <= k); [tauto|lia].
  - remember (S fuel) as fu. cbn [smear]. subst fu. destruct (Z.leb_spec (2 ^ k) bound) as [H|H].
    + pose proof (Z.pow_pos_nonneg 2 k ltac:(lia) Hk) as HP. rewrite shift_right_ok by lia.
      assert (Z.shiftl (2 ^ k) 1 = 2 ^ (k + 1)) as E2 by (rewrite Z.shiftl_mul_pow2 by lia; rewrite Z.pow_add_r by lia; reflexivity).
      assert (smeared n (2 ^ (k + 1)) (Z.lor m (Z.shiftr m (2 ^ k)))) as HS'.
      { destruct HS as [Hm HS]. split.
        - apply Z.lor_nonneg. split; auto. now apply Z.shiftr_nonneg.
        - intros b Hb. rewrite Z.lor_spec, Z.shiftr_spec, orb_true_iff by lia. rewrite (HS b Hb), (HS (b + 2 ^ k) ltac:(lia)).
          rewrite Z.pow_add_r by lia. change (2 ^ 1) with 2. split.
          + intros [(j & Hj & E)|(j & Hj & E)]; [exists j|exists (2 ^ k + j)]; (split; [lia|]); auto. rewrite Z.add_assoc. exact E.
          + intros (j & Hj & E). destruct (Z.lt_ge_cases j (2 ^ k)); [left; exists j; auto with zarith|]. right. exists (j - 2 ^ k). split; [lia|]. rewrite <- E. f_equal. lia. }
      pose proof (smeared_small n _ _ Hn HS') as HM. rewrite convert_small by (destruct HS' as [H0 _]; lia). rewrite E2.
      destruct (IH (k + 1) (Z.lor m (Z.shiftr m (2 ^ k)))) as (k' & m' & E & H1 & H3 & H4 & H5); auto; try lia.
      { replace (k + 1 + Z.of_nat fuel) with (k + Z.of_nat (S fuel)) by lia. exact HF. }
      exists k', m'. split; [exact E|]. split; [lia|]. split; [auto|]. split; [|auto]. right. destruct H4 as [->|H4]; auto. replace (k + 1 - 1) with k by lia. exact H.
    + exists k, m. cut (k <= k); [tauto|lia].
Qed.

Lemma smeared_1 : forall n, 0 <= n -> smeared n 1 n.
Proof.
  intros n Hn. split; auto. intros b Hb. split; [intros E; exists 0; rewrite Z.add_0_r; auto with zarith|].
  intros (j & Hj & E). replace j with 0 in E by lia. now rewrite Z.add_0_r in E.
Qed.

Lemma lt_pow2 : forall a, 0 <= a -> a < 2 ^ a.
Proof. intros a Ha. apply Z.pow_gt_lin_r; lia. Qed.

Lemma smear_all : forall n, 0 <= n < 2 ^ digits t -> exists k m, smear (Z.to_nat (bits t)) t (digits t / 2) 1 n = Some m /\ 0 <= k /\ digits t / 2 < 2 ^ k /\
  (k = 0 \/ 2 ^ (k - 1) <= digits t / 2) /\ smeared n (2 ^ k) m.
Proof.
  intros n Hn. pose proof digits_nonneg as DN. pose proof digits_le as DL. replace (Z.to_nat (bits t)) with (S (Z.to_nat (bits t - 1))) by lia. change 1 with (2 ^ 0) at 2.
  assert (digits t / 2 < bits t) as H1 by (apply Z.div_lt_upper_bound; lia).
  destruct (smear_spec (Z.to_nat (bits t - 1)) (digits t / 2) n 0 n) as (k & m & E & H); auto; try lia.
  { rewrite Z2Nat.id by lia. rewrite Z.add_0_l. pose proof (lt_pow2 (bits t - 1) ltac:(lia)). pose proof (Z.div_le_upper_bound (digits t) 2 (bits t - 1) ltac:(lia)).
    destruct (Z.eq_dec (bits t) 1) as [E1|E1]; [|lia]. rewrite E1 in *. assert (digits t = 0 \/ digits t = 1) as [->| ->] by lia; reflexivity. }
  { apply smeared_1. lia. }
  exists k, m. tauto.
Qed.

(** The bits that remain are those with no other bit in the [w] positions above. *)
Lemma hyperfloor_bits : forall n, 0 <= n < 2 ^ digits t -> exists k r, hyperfloor t n = Some r /\ 0 <= r /\ 0 <= k /\ digits t / 2 < 2 ^ k /\ (k = 0 \/ 2 ^ (k - 1) <= digits t / 2) /\
  forall b, 0 <= b -> Z.testbit r b = true <-> Z.testbit n b = true /\ forall j, 1 <= j <= 2 ^ k -> Z.testbit n (b + j) = false.
Proof.
  intros n Hn. destruct (smear_all n Hn) as (k & m & E & Hk & H1 & H2 & HS). pose proof (smeared_small n _ m Hn HS) as HM. destruct HS as [Hm HS].
  assert (0 <= Z.land m (Z.lnot (Z.shiftr m 1))) as HL by (apply Z.land_nonneg; auto).
  exists k, (Z.land m (Z.lnot (Z.shiftr m 1))). unfold hyperfloor. rewrite E. pose proof promoted_bits as PB.
  assert (1 < bits (promoted t)) as PB1. { unfold promoted, int32. destruct (Z.ltb_spec (bits t) 32); cbn [bits]; lia. }
  unfold shift_right. replace (0 <=? 1) with true by reflexivity. replace (1 <? bits (promoted t)) with true by (symmetry; apply Z.ltb_lt; lia). cbn [andb].
  rewrite convert_small.
  2:{ split; auto. apply small_bits; auto; [apply digits_nonneg|]. intros b Hb. pose proof digits_nonneg. rewrite Z.land_spec, (below m (digits t)) by lia. reflexivity. }
  split; [reflexivity|]. split; [auto|]. split; [auto|]. split; [auto|]. split; [auto|]. intros b Hb.
  rewrite Z.land_spec, Z.lnot_spec, Z.shiftr_spec, andb_true_iff, negb_true_iff by lia. rewrite <- not_true_iff_false. rewrite (HS b Hb), (HS (b + 1) ltac:(lia)).
  pose proof (Z.pow_pos_nonneg 2 k ltac:(lia) Hk) as HP. split.
  - intros [(j & Hj & Ej) HN]. assert (forall i, 1 <= i <= 2 ^ k -> Z.testbit n (b + i) = false) as HA.
    { intros i Hi. apply not_true_is_false. intros Ei. apply HN. exists (i - 1). split; [lia|]. rewrite <- Ei. f_equal. lia. }
    split; auto. destruct (Z.eq_dec j 0) as [->|]; [now rewrite Z.add_0_r in Ej|]. rewrite (HA j ltac:(lia)) in Ej. discriminate.
  - intros [E0 HA]. split; [exists 0; rewrite Z.add_0_r; auto with zarith|]. intros (j & Hj & Ej). specialize (HA (j + 1) ltac:(lia)). replace (b + 1 + j) with (b + (j + 1)) in Ej by lia. congruence.
Qed.

Lemma hyperfloor_below : forall n w, 0 < n < 2 ^ digits t -> (forall k, 0 <= k -> digits t / 2 < 2 ^ k -> w <= 2 ^ k) -> n < 2 ^ (w + 1) -> 0 <= w -> hyperfloor t n = Some (2 ^ Z.log2 n).
Proof.
  intros n w Hn HW Hw Hw0. destruct (hyperfloor_bits n ltac:(lia)) as (k & r & E & Hr & Hk & H1 & _ & HT). rewrite E. f_equal. specialize (HW k Hk H1).
  pose proof (Z.log2_nonneg n) as LN. pose proof (proj1 (Z.log2_lt_pow2 n (w + 1) ltac:(lia)) Hw) as LW.
  apply Z.bits_inj'. intros b Hb. rewrite Z.pow2_bits_eqb by lia. apply eq_true_iff_eq. rewrite (HT b Hb), Z.eqb_eq. split.
  - intros [Eb HA]. destruct (Z.lt_trichotomy (Z.log2 n) b) as [H|[H|H]]; auto.
    + rewrite Z.bits_above_log2 in Eb by lia. discriminate.
    + specialize (HA (Z.log2 n - b) ltac:(lia)). replace (b + (Z.log2 n - b)) with (Z.log2 n) in HA by lia. rewrite Z.bit_log2 in HA by lia. discriminate.
  - intros <-. split; [apply Z.bit_log2; lia|]. intros j Hj. apply Z.bits_above_log2; lia.
Qed.

Lemma hyperfloor_0 : hyperfloor t 0 = Some 0.
Proof.
  destruct (hyperfloor_bits 0) as (k & r & E & Hr & _ & _ & _ & HT). { pose proof (Z.pow_pos_nonneg 2 (digits t) ltac:(lia) digits_nonneg). lia. }
  rewrite E. f_equal. apply Z.bits_inj'. intros b Hb. rewrite Z.bits_0. apply not_true_is_false. intros Eb. apply HT in Eb as [Eb _]; auto. rewrite Z.bits_0 in Eb. discriminate.
Qed.

(** * log2, ceil_log2 *)
Lemma log2_half : forall n, 2 <= n -> Z.log2 n = Z.log2 (Z.shiftr n 1) + 1.
Proof.
  intros n Hn. rewrite Z.log2_shiftr by lia. pose proof (Z.log2_le_mono 2 n Hn) as H. change (Z.log2 2) with 1 in H. lia.
Qed.
Lemma shiftr_1 : forall n, Z.shiftr n 1 = n / 2.
Proof. intros n. rewrite Z.shiftr_div_pow2 by lia. reflexivity. Qed.

Lemma shift_right_1 : forall n, shift_right t n 1 = Some (Z.shiftr n 1).
Proof. intros n. unfold shift_right. replace (1 <? bits (promoted t)) with true; auto. symmetry. apply Z.ltb_lt. unfold promoted, int32. destruct (Z.ltb_spec (bits t) 32); cbn [bits]; lia. Qed.

Lemma log2_loop_spec : forall fuel n log, 0 < n -> Z.log2 n < Z.of_nat fuel -> 0 <= log -> log + Z.log2 n < 2 ^ digits t -> log2_loop fuel t n log = Some (log + Z.log2 n).
Proof.
  induction fuel as [|fuel IH]; intros n log Hn HF Hl HM; [pose proof (Z.log2_nonneg n); lia|]. cbn [log2_loop].
  rewrite shift_right_1. pose proof (shiftr_1 n) as E1.
  destruct (Z.eqb_spec (Z.shiftr n 1) 0) as [E|E].
  - assert (n = 1) as -> by (rewrite E1 in E; pose proof (Z.div_mod n 2 ltac:(lia)); pose proof (Z.mod_pos_bound n 2 ltac:(lia)); lia). change (Z.log2 1) with 0. f_equal. lia.
  - assert (2 <= n) as H2 by (destruct (Z.le_gt_cases 2 n); auto; exfalso; apply E; rewrite E1; replace n with 1 by lia; reflexivity).
    rewrite (log2_half n H2) in *. assert (0 <= n / 2) by (apply Z.div_pos; lia). pose proof (Z.log2_nonneg (Z.shiftr n 1)). rewrite add_small by lia. rewrite IH by lia. f_equal. lia.
Qed.

Lemma log2_fits : forall n, 0 < n < 2 ^ digits t -> Z.log2 n < digits t /\ Z.log2 n < 2 ^ digits t.
Proof. intros n Hn. pose proof (proj1 (Z.log2_lt_pow2 n (digits t) ltac:(lia)) ltac:(lia)) as H. split; auto. pose proof digits_nonneg. pose proof (lt_pow2 (digits t) ltac:(lia)). lia. Qed.

Lemma log2_spec : forall n, 0 < n < 2 ^ digits t -> log2 t n = Some (Z.log2 n).
Proof. intros n Hn. pose proof (log2_fits n Hn). pose proof digits_le. unfold log2. rewrite log2_loop_spec; try lia. f_equal. Qed.
Lemma log2_0 : log2 t 0 = Some 0.
Proof. unfold log2. replace (Z.to_nat (bits t)) with (S (Z.to_nat (bits t - 1))) by lia. cbn [log2_loop]. rewrite shift_right_1. reflexivity. Qed.

Lemma clz_spec : forall k n, 0 < n -> n < 2 ^ Z.of_nat k -> clz k n = Some (Z.of_nat k - 1 - Z.log2 n).
Proof.
  induction k as [|k IH]; intros n Hn Hk; [change (2 ^ Z.of_nat 0) with 1 in Hk; lia|]. cbn [clz].
  assert (Z.log2 n < Z.of_nat (S k)) as HL by (apply Z.log2_lt_pow2; lia). destruct (Z.eq_dec (Z.log2 n) (Z.of_nat k)) as [E|E].
  - rewrite <- E, Z.bit_log2 by lia. f_equal. lia.
  - rewrite Z.bits_above_log2 by lia. rewrite IH; auto; [f_equal; lia|]. apply Z.log2_lt_pow2; lia.
Qed.
Lemma log2_builtin_spec : forall n, signed t = false -> 0 < n < 2 ^ digits t -> log2_builtin t n = Some (Z.log2 n).
Proof.
  intros n HS Hn. pose proof (log2_fits n Hn). unfold log2_builtin. assert (digits t = bits t) as ED by (unfold digits; now rewrite HS).
  rewrite clz_spec; [|lia|rewrite Z2Nat.id by lia; rewrite <- ED; lia]. rewrite Z2Nat.id by lia. rewrite ED. f_equal.
  replace (bits t - (bits t - 1 - Z.log2 n) - 1) with (Z.log2 n) by lia. apply convert_small. pose proof (Z.log2_nonneg n). lia.
Qed.

Lemma ceil_log2_loop_spec : forall fuel n log, 0 <= n -> n < 2 ^ (Z.of_nat fuel) -> 0 <= log -> log + Z.log2_up (n + 1) < 2 ^ digits t ->
  ceil_log2_loop (S fuel) t n log = Some (log + Z.log2_up (n + 1)).
Proof.
  induction fuel as [|fuel IH]; intros n log Hn HF Hl HM.
  - replace n with 0 by (change (2 ^ Z.of_nat 0) with 1 in HF; lia). cbn [ceil_log2_loop]. change (0 <? 0) with false. cbv iota. f_equal. change (Z.log2_up (0 + 1)) with 0. lia.
  - remember (S fuel) as fu. cbn [ceil_log2_loop]. subst fu. destruct (Z.ltb_spec 0 n) as [H|H].
    + assert (Z.log2_up (n + 1) = Z.succ (Z.log2_up (Z.shiftr n 1 + 1))) as EU.
      { rewrite shiftr_1. destruct (Z.eq_dec n 1) as [->|]; [reflexivity|].
        rewrite !Z.log2_up_eqn by (try lia; assert (1 <= n / 2) by (apply Z.div_le_lower_bound; lia); lia).
        replace (Z.pred (n + 1)) with n by lia. replace (Z.pred (n / 2 + 1)) with (n / 2) by lia. rewrite (log2_half n ltac:(lia)), shiftr_1. lia. }
      pose proof (Z.log2_up_nonneg (Z.shiftr n 1 + 1)). rewrite add_small by lia. rewrite shift_right_1.
      assert (0 <= n / 2) by (apply Z.div_pos; lia). rewrite IH; try (rewrite ?shiftr_1 in *; lia).
      * f_equal. lia.
      * rewrite shiftr_1. apply Z.div_lt_upper_bound; [lia|]. rewrite <- Z.pow_succ_r by lia. rewrite Nat2Z.inj_succ in HF. exact HF.
    + replace n with 0 by lia. f_equal. change (Z.log2_up (0 + 1)) with 0. lia.
Qed.

Lemma ceil_log2_spec : forall n, 0 < n < 2 ^ digits t -> ceil_log2 t n = Some (Z.log2_up n).
Proof.
  intros n Hn. unfold ceil_log2. rewrite add_small by lia. pose proof digits_nonneg as DN. pose proof digits_le as DL.
  assert (Z.log2_up n <= digits t) as HU by (apply Z.log2_up_le_pow2; lia). pose proof (lt_pow2 (digits t) DN).
  rewrite ceil_log2_loop_spec; try lia.
  - f_equal. replace (n + -1 + 1) with n by lia. lia.
  - rewrite Z2Nat.id by lia. pose proof (Z.pow_le_mono_r 2 (digits t) (bits t) ltac:(lia) DL). lia.
  - replace (n + -1 + 1) with n by lia. lia.
Qed.

(** * half, has_single_bit *)
Lemma as_unsigned_small : forall n, 0 <= n < 2 ^ digits t -> as_unsigned t n = n.
Proof.
  intros n Hn. unfold as_unsigned. unfold convert, make_unsigned. cbn [bits signed]. apply Z.mod_small. pose proof (Z.pow_le_mono_r 2 (digits t) (bits t) ltac:(lia) digits_le). lia.
Qed.
Lemma half_spec : forall n, 0 <= n < 2 ^ digits t -> half t n = n / 2.
Proof.
  intros n Hn. unfold half. rewrite as_unsigned_small by auto. rewrite Z.quot_div_nonneg by lia. apply convert_small. split; [apply Z.div_pos; lia|]. apply Z.div_lt_upper_bound; lia.
Qed.

Lemma land_pred : forall n, 0 < n -> Z.land n (n - 1) = 0 <-> n = 2 ^ Z.log2 n.
Proof.
  intros n Hn. pose proof (Z.log2_spec n Hn) as [L1 L2]. pose proof (Z.log2_nonneg n) as LN. split.
  - intros E. destruct (Z.eq_dec n (2 ^ Z.log2 n)) as [|D]; auto. exfalso.
    assert (Z.testbit (Z.land n (n - 1)) (Z.log2 n) = true) as T.
    { rewrite Z.land_spec, Z.bit_log2 by lia. assert (Z.log2 (n - 1) = Z.log2 n) as <-. { apply Z.log2_unique; lia. } rewrite Z.bit_log2; [reflexivity|]. pose proof (Z.pow_pos_nonneg 2 (Z.log2 n) ltac:(lia) LN). lia. }
    rewrite E, Z.bits_0 in T. discriminate.
  - intros E. rewrite E. replace (2 ^ Z.log2 n - 1) with (Z.ones (Z.log2 n)) by (rewrite Z.ones_equiv; lia). rewrite Z.land_ones by lia. apply Z.mod_same. pose proof (Z.pow_pos_nonneg 2 (Z.log2 n) ltac:(lia) LN). lia.
Qed.
Lemma has_single_bit_spec : forall n, 0 <= n < 2 ^ digits t -> has_single_bit t n = true <-> exists k, 0 <= k /\ n = 2 ^ k.
Proof.
  intros n Hn. unfold has_single_bit. rewrite as_unsigned_small by auto. rewrite andb_true_iff, negb_true_iff, Z.eqb_neq, Z.eqb_eq. split.
  - intros [H0 E]. rewrite (convert_id (promoted (make_unsigned t))) in E.
    + apply land_pred in E; [|lia]. exists (Z.log2 n). split; [apply Z.log2_nonneg|auto].
    + unfold promoted. destruct (_ <? _); simpl; lia.
    + apply fits_promotion; [simpl; lia|]. unfold fits, type_min, type_max, make_unsigned. cbn [signed bits]. rewrite andb_true_iff, !Z.leb_le. pose proof (Z.pow_le_mono_r 2 (digits t) (bits t) ltac:(lia) digits_le). lia.
  - intros (k & Hk & E). pose proof (Z.pow_pos_nonneg 2 k ltac:(lia) Hk). split; [lia|]. rewrite (convert_id (promoted (make_unsigned t))).
    + apply land_pred; [lia|]. subst n. rewrite Z.log2_pow2; auto.
    + unfold promoted. destruct (_ <? _); simpl; lia.
    + apply fits_promotion; [simpl; lia|]. unfold fits, type_min, type_max, make_unsigned. cbn [signed bits]. rewrite andb_true_iff, !Z.leb_le. pose proof (Z.pow_le_mono_r 2 (digits t) (bits t) ltac:(lia) digits_le). lia.
Qed.
End Types.

(** * The widths that are powers of two *)
Section Widths.
Variables (t : int_type) (j : Z).
Hypothesis Hj : 1 <= j.
Hypothesis HW : bits t = 2 ^ j.

Lemma half_width : 2 ^ j = 2 * 2 ^ (j - 1).
Proof. rewrite <- Z.pow_succ_r by lia. f_equal. lia. Qed.
Lemma width_pos : 2 <= bits t.
Proof. rewrite HW, half_width. pose proof (Z.pow_pos_nonneg 2 (j - 1) ltac:(lia) ltac:(lia)). lia. Qed.
Lemma reach_unsigned : signed t = false -> forall k, 0 <= k -> digits t / 2 < 2 ^ k -> bits t <= 2 ^ k.
Proof.
  intros HS k Hk H. unfold digits in H. rewrite HS, HW, half_width in H. rewrite Z.mul_comm, Z.div_mul in H by lia. apply Z.pow_lt_mono_r_iff in H; [|lia|lia].
  rewrite HW. apply Z.pow_le_mono_r; lia.
Qed.
Lemma bound_signed : signed t = true -> digits t / 2 = 2 ^ (j - 1) - 1.
Proof. intros HS. unfold digits. rewrite HS, HW, half_width. replace (2 * 2 ^ (j - 1) - 1) with (1 + (2 ^ (j - 1) - 1) * 2) by lia. rewrite Z.div_add by lia. reflexivity. Qed.
Lemma reach_signed : signed t = true -> forall k, 0 <= k -> digits t / 2 < 2 ^ k -> 2 ^ (j - 1) <= 2 ^ k.
Proof. intros HS k Hk H. rewrite bound_signed in H by auto. lia. Qed.
Lemma reach_signed_eq : signed t = true -> forall k, 0 <= k -> digits t / 2 < 2 ^ k -> k = 0 \/ 2 ^ (k - 1) <= digits t / 2 -> 2 ^ k = 2 ^ (j - 1).
Proof.
  intros HS k Hk H H'. pose proof (reach_signed HS k Hk H) as H1. rewrite bound_signed in H' by auto. pose proof (Z.pow_pos_nonneg 2 (j - 1) ltac:(lia) ltac:(lia)).
  destruct H' as [->|H']; [change (2 ^ 0) with 1 in *; lia|]. destruct (Z.le_gt_cases k (j - 1)) as [H2|H2].
  - pose proof (Z.pow_le_mono_r 2 k (j - 1) ltac:(lia) H2). lia.
  - pose proof (Z.pow_le_mono_r 2 (j - 1) (k - 1) ltac:(lia) ltac:(lia)). lia.
Qed.

Lemma hyperfloor_unsigned : forall n, signed t = false -> 0 < n -> fits t n = true -> hyperfloor t n = Some (2 ^ Z.log2 n).
Proof.
  intros n HS Hn HF. pose proof width_pos. apply fits_nonneg in HF; try lia. apply hyperfloor_below with (w := bits t); try lia.
  - now apply reach_unsigned.
  - assert (digits t = bits t) as E by (unfold digits; now rewrite HS). rewrite E in HF. rewrite Z.pow_add_r by lia. lia.
Qed.

Lemma hyperfloor_signed : forall n, signed t = true -> fits t n = true -> 0 < n -> n < 2 ^ (bits t / 2 + 1) -> hyperfloor t n = Some (2 ^ Z.log2 n).
Proof.
  intros n HS HF Hn HL. pose proof width_pos. apply fits_nonneg in HF; try lia. rewrite HW, half_width, Z.mul_comm, Z.div_mul in HL by lia.
  apply hyperfloor_below with (w := 2 ^ (j - 1)); try lia. now apply reach_signed.
Qed.

Lemma hyperfloor_signed_bits : forall n, signed t = true -> fits t n = true -> 0 <= n -> exists r, hyperfloor t n = Some r /\ 0 <= r /\
  forall b, 0 <= b -> Z.testbit r b = true <-> Z.testbit n b = true /\ forall i, b < i <= b + bits t / 2 -> Z.testbit n i = false.
Proof.
  intros n HS HF Hn. pose proof width_pos. apply fits_nonneg in HF; try lia. destruct (hyperfloor_bits t ltac:(lia) n ltac:(lia)) as (k & r & E & Hr & Hk & H1 & H2 & HT).
  exists r. split; auto. split; auto. intros b Hb. rewrite (HT b Hb). rewrite (reach_signed_eq HS k) by auto. rewrite HW, half_width, (Z.mul_comm 2 (2 ^ (j - 1))), Z.div_mul by lia. split.
  - intros [E1 HA]. split; auto. intros i Hi. specialize (HA (i - b) ltac:(lia)). now replace (b + (i - b)) with i in HA by lia.
  - intros [E1 HA]. split; auto. intros i Hi. apply HA. lia.
Qed.

Lemma hyperceil_unsigned : forall n, signed t = false -> 0 < n -> fits t n = true -> hyperceil t n = Some (if n <=? 2 ^ (bits t - 1) then 2 ^ Z.log2_up n else 0).
Proof.
  intros n HS Hn HF. pose proof width_pos. apply fits_nonneg in HF; try lia. assert (digits t = bits t) as ED by (unfold digits; now rewrite HS).
  unfold hyperceil. rewrite add_small by lia. destruct (smear_all t ltac:(lia) (n + -1) ltac:(lia)) as (k & m & E & Hk & H1 & _ & [Hm HM]). rewrite E.
  pose proof (reach_unsigned HS k Hk H1) as HR.
  assert (m + 1 = 2 ^ Z.log2_up n) as EM.
  { destruct (Z.eq_dec n 1) as [->|D].
    - assert (m = 0) as ->; [|reflexivity]. apply Z.bits_inj'. intros b Hb. rewrite Z.bits_0. apply not_true_is_false. intros T. apply HM in T as (i & _ & T); auto. change (1 + -1) with 0 in T. rewrite Z.bits_0 in T. discriminate.
    - rewrite Z.log2_up_eqn by lia. replace (Z.pred n) with (n + -1) by lia. remember (n + -1) as x. pose proof (Z.log2_nonneg x).
      assert (m = Z.ones (Z.succ (Z.log2 x))) as ->; [|rewrite Z.ones_equiv; lia].
      apply Z.bits_inj'. intros b Hb. apply eq_true_iff_eq. rewrite (HM b Hb). rewrite Z.testbit_ones_nonneg, Z.ltb_lt by lia.
      assert (Z.log2 x < bits t) as HL by (apply Z.log2_lt_pow2; [lia|]; rewrite <- ED; lia). split.
      + intros (i & Hi & T). destruct (Z.le_gt_cases (b + i) (Z.log2 x)); [lia|]. rewrite Z.bits_above_log2 in T by lia. discriminate.
      + intros Hbl. exists (Z.log2 x - b). split; [lia|]. replace (b + (Z.log2 x - b)) with (Z.log2 x) by lia. apply Z.bit_log2. lia. }
  assert (add t m 1 = Some (convert t (m + 1))) as EA.
  { unfold add. assert (m < 2 ^ digits t) as HMd. { apply (smeared_small t ltac:(lia) (n + -1) (2 ^ k)); [lia|split; auto]. }
    destruct (signed (promoted t)) eqn:EP; auto. assert (fits (promoted t) (m + 1) = true) as ->; auto. unfold promoted in *. destruct (Z.ltb_spec (bits t) 32); [|congruence].
    unfold fits, type_min, type_max, int32. cbn [signed bits]. rewrite andb_true_iff, !Z.leb_le. rewrite ED in HMd. pose proof (Z.pow_le_mono_r 2 (bits t) 31 ltac:(lia) ltac:(lia)). 
    destruct (Z.eq_dec (bits t) 31) as [E31|E31]; [exfalso; rewrite HW in E31; destruct (Z.eq_dec j 1) as [->|]; [discriminate|]; destruct (Z.eq_dec j 2) as [->|]; [discriminate|]; destruct (Z.eq_dec j 3) as [->|]; [discriminate|];
      destruct (Z.eq_dec j 4) as [->|]; [discriminate|]; pose proof (Z.pow_le_mono_r 2 5 j ltac:(lia) ltac:(lia)); lia|].
    pose proof (Z.pow_le_mono_r 2 (bits t) 30 ltac:(lia) ltac:(lia)). lia. }
  rewrite EA, EM. f_equal. unfold convert. rewrite HS. pose proof (Z.log2_up_nonneg n). destruct (Z.leb_spec n (2 ^ (bits t - 1))) as [H2|H2].
  - apply Z.mod_small. split; [apply Z.pow_nonneg; lia|]. apply Z.pow_lt_mono_r; try lia. assert (Z.log2_up n <= bits t - 1) by (apply Z.log2_up_le_pow2; lia). lia.
  - assert (Z.log2_up n = bits t) as ->; [|apply Z.mod_same; lia]. apply Z.log2_up_unique; try lia.
    replace (Z.pred (bits t)) with (bits t - 1) by lia. rewrite <- ED at 2. lia.
Qed.

Lemma convert_bits : forall u z b, signed u = false -> 0 <= b < bits u -> Z.testbit (convert u z) b = Z.testbit z b.
Proof. intros u z b HS Hb. unfold convert. rewrite HS. apply Z.mod_pow2_bits_low. lia. Qed.

Lemma rotl_spec : forall x s, signed t = false -> 0 <= x -> fits t x = true -> 0 < s < bits t -> exists r, rotl t x s = Some r /\ fits t r = true /\
  forall b, 0 <= b < bits t -> Z.testbit r ((b + s) mod bits t) = Z.testbit x b.
Proof.
  intros x s HS Hx HF Hs. pose proof width_pos as WP. apply fits_nonneg in HF; try lia. assert (digits t = bits t) as ED by (unfold digits; now rewrite HS). rewrite ED in HF.
  unfold rotl. rewrite ED. rewrite shift_right_ok by lia.
  assert (exists l, shift_left t x s = Some l /\ forall b, 0 <= b < bits t -> Z.testbit l b = Z.testbit (Z.shiftl x s) b) as (l & El & Hl).
  { unfold shift_left. pose proof (promoted_bits t) as PB. replace (0 <=? s) with true by (symmetry; apply Z.leb_le; lia). replace (s <? bits (promoted t)) with true by (symmetry; apply Z.ltb_lt; lia). cbn [andb].
    unfold promoted in *. destruct (Z.ltb_spec (bits t) 32) as [H32|H32]; cbn [signed negb orb].
    - assert (bits t <= 16) as H16. { rewrite HW in *. destruct (Z.le_gt_cases j 4) as [H4|H4]; [apply (Z.pow_le_mono_r 2 j 4); lia|]. pose proof (Z.pow_le_mono_r 2 5 j ltac:(lia) ltac:(lia)). lia. }
      assert (0 <= Z.shiftl x s < 2 ^ 31) as HX.
      { rewrite Z.shiftl_mul_pow2 by lia. pose proof (Z.pow_pos_nonneg 2 s ltac:(lia) ltac:(lia)). split; [nia|]. pose proof (Z.pow_le_mono_r 2 s 15 ltac:(lia) ltac:(lia)). pose proof (Z.pow_le_mono_r 2 (bits t) 16 ltac:(lia) ltac:(lia)).
        change (2 ^ 31) with (2 ^ 16 * 2 ^ 15). change (2 ^ 16) with 65536 in *. change (2 ^ 15) with 32768 in *. nia. }
      change (signed int32) with true. cbn [negb orb]. replace (0 <=? x) with true by (symmetry; apply Z.leb_le; lia). replace (Z.shiftl x s <? 2 ^ bits int32) with true by (symmetry; apply Z.ltb_lt; cbn [bits int32]; lia). cbn [andb].
      eexists. split; [reflexivity|]. intros b Hb. rewrite convert_id; auto; [cbn; lia|]. unfold fits, type_min, type_max, int32. cbn [signed bits]. rewrite andb_true_iff, !Z.leb_le. change (32 - 1) with 31. lia.
    - rewrite HS. cbn [negb orb]. eexists. split; [reflexivity|]. intros b Hb. now apply convert_bits. }
  rewrite El. eexists. split; [reflexivity|]. split.
  { apply fits_small. rewrite ED. unfold convert. rewrite HS. apply Z.mod_pos_bound. apply Z.pow_pos_nonneg; lia. }
  intros b Hb. pose proof (Z.mod_pos_bound (b + s) (bits t) ltac:(lia)) as HMod. rewrite convert_bits by auto. rewrite Z.lor_spec, Hl, Z.shiftr_spec, Z.shiftl_spec by lia.
  destruct (Z.lt_ge_cases (b + s) (bits t)) as [H|H].
  - rewrite Z.mod_small by lia. replace (b + s - s) with b by lia. rewrite (below x (bits t) (b + s + (bits t - s))) by lia. apply orb_false_r.
  - replace ((b + s) mod bits t) with (b + s - bits t) by (apply Z.mod_unique with (q := 1); lia). rewrite Z.testbit_neg_r by lia. cbn [orb]. f_equal. lia.
Qed.

(** What wiki_sort divides by four: the isolated bits below the third one do not matter. *)
Lemma hyperfloor_quarter : forall n, signed t = true -> fits t n = true -> 0 < n -> n < 2 ^ (bits t / 2 + 3) -> exists r, hyperfloor t n = Some r /\ 0 <= r /\ r / 4 = 2 ^ Z.log2 n / 4.
Proof.
  intros n HS HF Hn HL. destruct (hyperfloor_signed_bits n HS HF ltac:(lia)) as (r & E & Hr & HT). exists r. split; auto. split; auto.
  pose proof width_pos. assert (0 <= bits t / 2) by (apply Z.div_pos; lia). pose proof (proj1 (Z.log2_lt_pow2 n (bits t / 2 + 3) ltac:(lia)) HL) as LW. pose proof (Z.log2_nonneg n).
  change 4 with (2 ^ 2). rewrite <- !Z.shiftr_div_pow2 by lia. apply Z.bits_inj'. intros b Hb. rewrite !Z.shiftr_spec by lia. rewrite Z.pow2_bits_eqb by lia. apply eq_true_iff_eq. rewrite (HT (b + 2) ltac:(lia)), Z.eqb_eq. split.
  - intros [Eb HA]. destruct (Z.lt_trichotomy (Z.log2 n) (b + 2)) as [H'|[H'|H']]; auto.
    + rewrite Z.bits_above_log2 in Eb by lia. discriminate.
    + specialize (HA (Z.log2 n) ltac:(lia)). rewrite Z.bit_log2 in HA by lia. discriminate.
  - intros <-. split; [apply Z.bit_log2; lia|]. intros i Hi. apply Z.bits_above_log2; lia.
Qed.

(** A bit that is too far below the highest one remains. *)
Lemma hyperfloor_far : forall n a c, signed t = true -> fits t n = true -> 0 <= c -> c + bits t / 2 < a -> n = 2 ^ a + 2 ^ c -> hyperfloor t n = Some n.
Proof.
  intros n a c HS HF Hc Ha E. pose proof width_pos. assert (0 <= bits t / 2) by (apply Z.div_pos; lia).
  assert (forall b, 0 <= b -> Z.testbit n b = true <-> b = a \/ b = c) as HN.
  { intros b Hb. rewrite E, Z.add_nocarry_lxor.
    - rewrite Z.lxor_spec, !Z.pow2_bits_eqb by lia. destruct (Z.eqb_spec a b), (Z.eqb_spec c b); cbn [xorb]; split; intros; try lia; try discriminate; auto.
    - apply Z.bits_inj'. intros i Hi. rewrite Z.land_spec, Z.bits_0, !Z.pow2_bits_eqb by lia. destruct (Z.eqb_spec a i), (Z.eqb_spec c i); auto. lia. }
  destruct (hyperfloor_signed_bits n HS HF) as (r & Er & Hr & HT). { pose proof (Z.pow_nonneg 2 a ltac:(lia)). pose proof (Z.pow_nonneg 2 c ltac:(lia)). lia. }
  rewrite Er. f_equal. apply Z.bits_inj'. intros b Hb. apply eq_true_iff_eq. rewrite (HT b Hb). split; [tauto|]. intros Eb. split; auto. intros i Hi. apply not_true_is_false. intros Ei.
  apply HN in Eb; auto. apply HN in Ei; lia.
Qed.
End Widths.

(** * In elementary terms *)
Lemma log2_between : forall n, 0 < n -> 0 <= Z.log2 n /\ 2 ^ Z.log2 n <= n < 2 ^ (Z.log2 n + 1).
Proof. intros n Hn. pose proof (Z.log2_spec n Hn) as H. rewrite <- Z.add_1_r in H. split; auto. apply Z.log2_nonneg. Qed.
Lemma log2_up_between : forall n, 0 < n -> 0 <= Z.log2_up n /\ n <= 2 ^ Z.log2_up n /\ 2 ^ Z.log2_up n < 2 * n.
Proof.
  intros n Hn. split; [apply Z.log2_up_nonneg|]. destruct (Z.eq_dec n 1) as [->|]; [change (Z.log2_up 1) with 0; change (2 ^ 0) with 1; lia|].
  pose proof (Z.log2_up_spec n ltac:(lia)) as [H1 H2]. split; auto. pose proof (Z.log2_up_pos n ltac:(lia)). replace (Z.log2_up n) with (Z.succ (Z.pred (Z.log2_up n))) by lia. rewrite Z.pow_succ_r by lia. lia.
Qed.

(** * The functions of the other models *)
From Verif Require Model.Poplar Model.Pdq Model.Networks.

Lemma log2_nat : forall n, (0 < n)%nat -> Z.log2 (Z.of_nat n) = Z.of_nat (Nat.log2 n).
Proof.
  intros n Hn. apply Z.log2_unique; [lia|]. pose proof (Nat.log2_spec n Hn) as [L1 L2]. apply Nat2Z.inj_le in L1. apply Nat2Z.inj_lt in L2.
  rewrite Nat2Z.inj_pow in L1, L2. change (Z.of_nat 2) with 2 in *. rewrite Nat2Z.inj_succ in L2. split; auto.
Qed.
Lemma poplar_hyperfloor : forall n, (0 < n)%nat -> Z.of_nat (Poplar.hyperfloor n) = 2 ^ Z.log2 (Z.of_nat n).
Proof.
  intros n Hn. unfold Poplar.hyperfloor. destruct (Nat.eqb_spec n 0); [lia|]. rewrite Nat2Z.inj_pow, log2_nat by auto. reflexivity.
Qed.
Lemma pdq_log2_loop : forall fuel n log, (n <= fuel)%nat -> Pdq.log2_loop fuel n log = (log + Nat.log2 n)%nat.
Proof.
  induction fuel as [|fuel IH]; intros n log Hf; cbn [Pdq.log2_loop]; [replace n with O by lia; change (Nat.log2 0) with O; lia|].
  pose proof (Nat.div_mod n 2 ltac:(lia)) as DM. pose proof (Nat.mod_upper_bound n 2 ltac:(lia)) as MB.
  destruct (Nat.eqb_spec (n / 2) 0) as [E|E].
  - destruct n as [|[|n]]; try (change (Nat.log2 _) with O; lia). lia.
  - rewrite IH by lia. rewrite <- Nat.div2_div in *. pose proof (Nat.log2_double (Nat.div2 n) ltac:(lia)) as H1. pose proof (Nat.log2_succ_double (Nat.div2 n) ltac:(lia)) as H2.
    assert (n = 2 * Nat.div2 n \/ n = 2 * Nat.div2 n + 1)%nat as [EN|EN] by lia; rewrite EN at 2; lia.
Qed.
Lemma networks_ceil_log2_loop : forall fuel n log, (n <= fuel)%nat -> Networks.ceil_log2_loop fuel n log = Some (log + Nat.log2_up (S n))%nat.
Proof.
  induction fuel as [|fuel IH]; intros n log Hf; cbn [Networks.ceil_log2_loop].
  - replace n with O by lia. cbn [Nat.eqb]. change (Nat.log2_up 1) with O. f_equal. lia.
  - destruct (Nat.eqb_spec n 0) as [->|E]; [change (Nat.log2_up 1) with O; f_equal; lia|].
    pose proof (Nat.div_mod n 2 ltac:(lia)) as DM. pose proof (Nat.mod_upper_bound n 2 ltac:(lia)) as MB. rewrite IH by lia. f_equal.
    destruct (Nat.eq_dec n 1) as [->|N1]; [change (Nat.log2_up 2) with 1%nat; change (Nat.log2_up (S (1 / 2))) with O; lia|]. rewrite !Nat.log2_up_eqn by lia. cbn [Nat.pred]. rewrite <- Nat.div2_div in *.
    pose proof (Nat.log2_double (Nat.div2 n) ltac:(lia)) as H1. pose proof (Nat.log2_succ_double (Nat.div2 n) ltac:(lia)) as H2.
    assert (n = 2 * Nat.div2 n \/ n = 2 * Nat.div2 n + 1)%nat as [EN|EN] by lia; rewrite EN at 2; lia.
Qed.
Lemma log2_up_nat : forall n, (0 < n)%nat -> Z.log2_up (Z.of_nat n) = Z.of_nat (Nat.log2_up n).
Proof.
  intros n Hn. destruct (Nat.eq_dec n 1) as [->|]; [reflexivity|]. rewrite Z.log2_up_eqn, Nat.log2_up_eqn by lia. rewrite <- Nat2Z.inj_pred by lia. rewrite log2_nat by lia. lia.
Qed.
