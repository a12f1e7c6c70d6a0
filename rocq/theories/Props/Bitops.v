(** C73: the bit operations of detail/bitops.h, and what the sorters get from them. *)
From Coq Require Import ZArith Bool Lia.
From Verif Require Import Model.Counting Model.Bitops Proofs.Bitops.
From Verif Require Model.Poplar Model.Pdq Model.Networks.
Local Open Scope Z_scope.

(** [hyperfloor] on an unsigned type whose width is a power of two: the greatest power of two that is not greater; 0 for 0. *)
Theorem C73_hyperfloor_unsigned :
  forall (t : int_type) (j n : Z), 1 <= j -> bits t = 2 ^ j -> signed t = false -> 0 <= n -> fits t n = true ->
    (n = 0 -> hyperfloor t n = Some 0) /\
    (0 < n -> exists k, 0 <= k /\ hyperfloor t n = Some (2 ^ k) /\ 2 ^ k <= n < 2 ^ (k + 1)).
Proof.
  intros t j n Hj HW HS Hn HF. pose proof (width_pos t j Hj HW) as WP. split.
  - intros ->. apply hyperfloor_0. lia.
  - intros H0. destruct (log2_between n H0) as [L0 L]. exists (Z.log2 n). split; auto. split; auto. now apply (hyperfloor_unsigned t j).
Qed.
Print Assumptions C73_hyperfloor_unsigned.

(** On a signed type: the bits that have no other bit in the [bits t / 2] positions above them.  The full claim, that only the highest one remains,
    is false; it holds up to the size given below, where it fails. *)
Theorem C73_hyperfloor_signed_exact :
  forall (t : int_type) (j n : Z), 1 <= j -> bits t = 2 ^ j -> signed t = true -> 0 < n -> fits t n = true ->
    (exists r, hyperfloor t n = Some r /\ 0 <= r /\
       forall b, 0 <= b -> (Z.testbit r b = true <-> Z.testbit n b = true /\ forall i, b < i <= b + bits t / 2 -> Z.testbit n i = false)) /\
    (n <= 2 ^ (bits t / 2 + 1) -> exists k, 0 <= k /\ hyperfloor t n = Some (2 ^ k) /\ 2 ^ k <= n < 2 ^ (k + 1)) /\
    (n = 2 ^ (bits t / 2 + 1) + 1 -> hyperfloor t n = Some n).
Proof.
  intros t j n Hj HW HS Hn HF. pose proof (width_pos t j Hj HW) as WP. assert (0 <= bits t / 2) as HB2 by (apply Z.div_pos; lia). destruct (log2_between n Hn) as [L0 L].
  destruct (hyperfloor_signed_bits t j Hj HW n HS HF ltac:(lia)) as (r & E & Hr & HT). split; [exists r; auto|]. split.
  - intros HL. exists (Z.log2 n). split; auto. split; auto. destruct (Z.eq_dec n (2 ^ (bits t / 2 + 1))) as [EN|EN].
    + rewrite E. f_equal. rewrite EN at 1. rewrite EN in HT. rewrite Z.log2_pow2 by lia. apply Z.bits_inj'. intros b Hb. apply eq_true_iff_eq. rewrite (HT b Hb). split; [tauto|]. intros Eb. split; auto.
      intros i Hi. rewrite Z.pow2_bits_eqb in * by lia. apply Z.eqb_eq in Eb. apply Z.eqb_neq. lia.
    + apply (hyperfloor_signed t j); auto. lia.
  - intros EN. apply (hyperfloor_far t j Hj HW n (bits t / 2 + 1) 0); auto; lia.
Qed.
Print Assumptions C73_hyperfloor_signed_exact.

(** The full claim for the types on which the library calls it: std::ptrdiff_t of 64 and of 32 bits. *)
Theorem C73_hyperfloor_signed_refuted :
  forall t : int_type, t = ptrdiff \/ t = int32 ->
    ~ (forall n, 0 < n -> fits t n = true -> exists k, 0 <= k /\ hyperfloor t n = Some (2 ^ k) /\ 2 ^ k <= n < 2 ^ (k + 1)).
Proof.
  intros t Ht H. assert (exists n a, 0 < a /\ n = 2 ^ a + 1 /\ fits t n = true /\ hyperfloor t n = Some n) as (n & a & Ha & E & HF & HH).
  { destruct Ht as [->| ->]; [exists (2 ^ 33 + 1), 33|exists (2 ^ 17 + 1), 17]; repeat split; vm_compute; reflexivity. }
  pose proof (Z.pow_le_mono_r 2 1 a ltac:(lia) ltac:(lia)) as H2. change (2 ^ 1) with 2 in H2. destruct (H n ltac:(lia) HF) as (k & Hk & E' & _). rewrite HH in E'. injection E' as E'. rewrite E in E'.
  destruct (Z.eq_dec k 0) as [->|]; [change (2 ^ 0) with 1 in E'; lia|]. replace a with (Z.succ (a - 1)) in E' by lia. replace k with (Z.succ (k - 1)) in E' by lia. rewrite !Z.pow_succ_r in E' by lia. lia.
Qed.
Print Assumptions C73_hyperfloor_signed_refuted.

(** [hyperceil] on an unsigned type: the least power of two that is not less, 0 if it does not fit. *)
Theorem C73_hyperceil_unsigned :
  forall (t : int_type) (j n : Z), 1 <= j -> bits t = 2 ^ j -> signed t = false -> 0 < n -> fits t n = true ->
    (n <= 2 ^ (bits t - 1) -> exists k, 0 <= k /\ hyperceil t n = Some (2 ^ k) /\ n <= 2 ^ k < 2 * n) /\
    (2 ^ (bits t - 1) < n -> hyperceil t n = Some 0).
Proof.
  intros t j n Hj HW HS Hn HF. rewrite (hyperceil_unsigned t j Hj HW n HS Hn HF). destruct (log2_up_between n Hn) as (L0 & L). split; intros HL.
  - exists (Z.log2_up n). apply Z.leb_le in HL. rewrite HL. auto.
  - apply Z.leb_gt in HL. now rewrite HL.
Qed.
Print Assumptions C73_hyperceil_unsigned.

(** Both versions of [log2], of any width; the generic one also on signed types.  The generic version of 0 is 0. *)
Theorem C73_log2 :
  forall (t : int_type) (n : Z), 1 <= bits t -> 0 < n -> fits t n = true ->
    exists k, 0 <= k /\ 2 ^ k <= n < 2 ^ (k + 1) /\ log2 t n = Some k /\ (signed t = false -> log2_builtin t n = Some k) /\ log2 t 0 = Some 0.
Proof.
  intros t n HB Hn HF. apply fits_nonneg in HF; [|lia]. destruct (log2_between n Hn) as [L0 L]. exists (Z.log2 n). split; auto. split; auto. split; [now apply log2_spec|].
  split; [intros HS; now apply log2_builtin_spec|now apply log2_0].
Qed.
Print Assumptions C73_log2.

Theorem C73_ceil_log2 :
  forall (t : int_type) (n : Z), 1 <= bits t -> 0 < n -> fits t n = true -> exists k, 0 <= k /\ n <= 2 ^ k < 2 * n /\ ceil_log2 t n = Some k.
Proof. intros t n HB Hn HF. apply fits_nonneg in HF; [|lia]. destruct (log2_up_between n Hn) as (L0 & L). exists (Z.log2_up n). split; auto. split; auto. now apply ceil_log2_spec. Qed.
Print Assumptions C73_ceil_log2.

Theorem C73_half :
  forall (t : int_type) (n : Z), 1 <= bits t -> 0 <= n -> fits t n = true -> 2 * half t n <= n <= 2 * half t n + 1.
Proof. intros t n HB Hn HF. apply fits_nonneg in HF; [|lia]. rewrite half_spec by lia. pose proof (Z.div_mod n 2 ltac:(lia)). pose proof (Z.mod_pos_bound n 2 ltac:(lia)). lia. Qed.
Print Assumptions C73_half.

Theorem C73_has_single_bit :
  forall (t : int_type) (n : Z), 1 <= bits t -> 0 <= n -> fits t n = true -> has_single_bit t n = true <-> exists k, 0 <= k /\ n = 2 ^ k.
Proof. intros t n HB Hn HF. apply fits_nonneg in HF; [|lia]. apply has_single_bit_spec; lia. Qed.
Print Assumptions C73_has_single_bit.

(** [rotl]: the bit of position [b] goes to the position [b + s], modulo the width. *)
Theorem C73_rotl :
  forall (t : int_type) (j x s : Z), 1 <= j -> bits t = 2 ^ j -> signed t = false -> 0 <= x -> fits t x = true -> 0 < s < bits t ->
    exists r, rotl t x s = Some r /\ fits t r = true /\ forall b, 0 <= b < bits t -> Z.testbit r ((b + s) mod bits t) = Z.testbit x b.
Proof. intros t j x s Hj HW HS Hx HF Hs. now apply (rotl_spec t j). Qed.
Print Assumptions C73_rotl.

(** The functions on natural numbers that the models of the sorters use are these functions, on every number that fits. *)
Theorem C73_sorters_bitops :
  forall (t : int_type) (j : Z) (n : nat), 1 <= j -> bits t = 2 ^ j -> fits t (Z.of_nat n) = true ->
    (signed t = false -> hyperfloor t (Z.of_nat n) = Some (Z.of_nat (Poplar.hyperfloor n))) /\
    log2 t (Z.of_nat n) = Some (Z.of_nat (Pdq.log2 n)) /\
    log2 t (Z.of_nat n) = Some (Z.of_nat (Nat.log2 n)) /\
    ((0 < n)%nat -> exists k, Networks.ceil_log2 n = Some k /\ ceil_log2 t (Z.of_nat n) = Some (Z.of_nat k)).
Proof.
  intros t j n Hj HW HF. pose proof (width_pos t j Hj HW) as WP. pose proof (fits_nonneg t _ (Nat2Z.is_nonneg n) HF) as HL.
  assert (log2 t (Z.of_nat n) = Some (Z.of_nat (Nat.log2 n))) as E.
  { destruct (Nat.eq_dec n 0) as [->|]; [apply log2_0; lia|]. rewrite <- log2_nat by lia. apply log2_spec; lia. }
  split; [|split; [|split; [exact E|]]].
  - intros HS. destruct (Nat.eq_dec n 0) as [->|]; [apply hyperfloor_0; lia|]. rewrite poplar_hyperfloor by lia. apply (hyperfloor_unsigned t j); auto; lia.
  - unfold Pdq.log2. rewrite pdq_log2_loop by auto. exact E.
  - intros Hn. exists (Nat.log2_up n). split.
    + unfold Networks.ceil_log2. rewrite networks_ceil_log2_loop by lia. f_equal. replace (S (n - 1)) with n by lia. lia.
    + rewrite <- log2_up_nat by lia. apply ceil_log2_spec; lia.
Qed.
Print Assumptions C73_sorters_bitops.

(** unsigned char, short, unsigned int and std::ptrdiff_t. *)
Example C73_case :
  let u8 := {| bits := 8; signed := false |} in
  let i16 := {| bits := 16; signed := true |} in
  let u32 := {| bits := 32; signed := false |} in
  hyperfloor u8 200 = Some 128 /\ hyperceil u8 100 = Some 128 /\ hyperceil u8 200 = Some 0 /\ hyperfloor u32 (2 ^ 31 + 5) = Some (2 ^ 31) /\
  hyperfloor i16 512 = Some 512 /\ hyperfloor i16 511 = Some 256 /\ hyperfloor i16 513 = Some 513 /\
  hyperfloor ptrdiff (2 ^ 33) = Some (2 ^ 33) /\ hyperfloor ptrdiff (2 ^ 33 + 1) = Some (2 ^ 33 + 1) /\
  log2 i16 1000 = Some 9 /\ log2_builtin u32 1000 = Some 9 /\ ceil_log2 ptrdiff 1025 = Some 11 /\ half i16 7 = 3 /\
  has_single_bit i16 64 = true /\ has_single_bit i16 65 = false /\ has_single_bit i16 0 = false /\ rotl u8 129 1 = Some 3 /\ rotl u32 (2 ^ 31 + 1) 4 = Some 24.
Proof. repeat split; vm_compute; reflexivity. Qed.
