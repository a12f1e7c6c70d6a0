(** The order of floating point numbers is that of their bits, up to the sign. *)
From Coq Require Import List Arith NArith ZArith QArith Qpower Lia Permutation Bool.
From Verif Require Import Spec.Order Lang.Mem Spec.Sorts Spec.Verge Proofs.Wp Proofs.OrderLib Model.Comparators Proofs.Comparators Model.Counting Model.Ska Proofs.SkaKeys Model.Ieee.
Import ListNotations.
Local Open Scope Z_scope.
Local Arguments Z.pow : simpl never.

(** The two formats that the library handles. *)
Definition supported (f : format) : Prop := f = binary32 \/ f = binary64.

Section Format.
Variable f : format.
Hypothesis HF : 1 <= exponent_bits f /\ 1 <= fraction_bits f.
Local Notation P := (fraction_bits f).
Local Notation E := (exponent_bits f).
Local Notation B := (magnitude_bits f).

Lemma pow_P : 0 < 2 ^ P. Proof. apply Z.pow_pos_nonneg; lia. Qed.
Lemma pow_E : 2 <= 2 ^ E. Proof. change 2 with (2 ^ 1) at 1. apply Z.pow_le_mono_r; lia. Qed.
Lemma pow_B : 2 ^ B = 2 ^ E * 2 ^ P. Proof. unfold magnitude_bits. apply Z.pow_add_r; lia. Qed.
Lemma pow_W : 2 ^ width f = 2 * 2 ^ B. Proof. unfold width. rewrite Z.pow_add_r; [reflexivity|lia|unfold magnitude_bits; lia]. Qed.

(** The magnitude, scaled to an integer. *)
Definition scaled (m : Z) : Z := if m / 2 ^ P =? 0 then m mod 2 ^ P else (2 ^ P + m mod 2 ^ P) * 2 ^ (m / 2 ^ P - 1).
Lemma scaled_mono : forall m m', 0 <= m < m' -> scaled m < scaled m'.
Proof.
  intros m m' H. unfold scaled. pose proof pow_P as HP. pose proof (Z.div_mod m (2 ^ P) ltac:(lia)) as D1. pose proof (Z.div_mod m' (2 ^ P) ltac:(lia)) as D2.
  pose proof (Z.mod_pos_bound m (2 ^ P) HP) as M1. pose proof (Z.mod_pos_bound m' (2 ^ P) HP) as M2. assert (Q0 : 0 <= m / 2 ^ P) by (apply Z.div_pos; lia).
  assert (QL : m / 2 ^ P <= m' / 2 ^ P) by (apply Z.div_le_mono; lia). set (q := m / 2 ^ P) in *. set (q' := m' / 2 ^ P) in *. set (r := m mod 2 ^ P) in *. set (r' := m' mod 2 ^ P) in *. clearbody q q' r r'.
  destruct (Z.eq_dec q q') as [->|N].
  - assert (r < r') by lia. destruct (Z.eqb_spec q' 0); [lia|]. apply Zmult_lt_compat_r; [apply Z.pow_pos_nonneg; lia|lia].
  - destruct (Z.eqb_spec q' 0); [lia|]. destruct (Z.eqb_spec q 0) as [->|].
    + assert (1 <= 2 ^ (q' - 1)) by (change 1 with (2 ^ 0) at 1; apply Z.pow_le_mono_r; lia). nia.
    + assert (2 * 2 ^ (q - 1) <= 2 ^ (q' - 1)). { rewrite <- Z.pow_succ_r by lia. apply Z.pow_le_mono_r; lia. } assert (0 < 2 ^ (q - 1)) by (apply Z.pow_pos_nonneg; lia). nia.
Qed.
Lemma scaled_0 : scaled 0 = 0.
Proof. unfold scaled. pose proof pow_P. rewrite Z.div_0_l by lia. cbn [Z.eqb]. apply Z.mod_0_l. lia. Qed.
Lemma scaled_nonneg : forall m, 0 <= m -> 0 <= scaled m.
Proof. intros m Hm. destruct (Z.eq_dec m 0) as [->|]; [rewrite scaled_0; lia|]. pose proof (scaled_mono 0 m ltac:(lia)). rewrite scaled_0 in H. lia. Qed.

Definition unit_exponent : Z := 1 - bias f - P.
Definition infinite_magnitude : Z := (2 ^ E - 1) * 2 ^ P.

Definition negative (u : Z) : bool := 2 ^ B <=? u.
Definition magnitude (u : Z) : Z := if negative u then u - 2 ^ B else u.
Definition signed_magnitude (u : Z) : Z := if negative u then - magnitude u else magnitude u.

Lemma finite_spec : forall s m e, 0 <= m -> isfinite (finite s m e) = true /\ (fp_value (finite s m e) == inject_Z (if s then - m else m) * (2 # 1) ^ e)%Q.
Proof.
  intros s m e Hm. destruct m as [|p|p]; [| |lia]; cbn [finite isfinite fp_value].
  - split; auto. destruct s; cbn [Z.opp]; symmetry; apply Qmult_0_l.
  - split; auto. destruct s; reflexivity.
Qed.

Lemma decode_spec : forall u, 0 <= u < 2 ^ width f -> isnan (decode f u) = false ->
  let s := negative u in let m := magnitude u in
  0 <= m /\ (m = infinite_magnitude /\ decode f u = Infinite s \/
             m < infinite_magnitude /\ isfinite (decode f u) = true /\ (fp_value (decode f u) == inject_Z (if s then - scaled m else scaled m) * (2 # 1) ^ unit_exponent)%Q).
Proof.
  intros u Hu HN s m. pose proof pow_P as HP. pose proof pow_E as HE. pose proof pow_B as HB. pose proof pow_W as HW.
  assert (Hm : 0 <= m < 2 ^ B /\ u = m + (if s then 2 ^ E else 0) * 2 ^ P). { unfold m, s, magnitude, negative. destruct (Z.leb_spec (2 ^ B) u); lia. } destruct Hm as [Hm Eu]. split; [lia|].
  assert (E1 : u / 2 ^ P = m / 2 ^ P + (if s then 2 ^ E else 0)) by (rewrite Eu; apply Z.div_add; lia).
  assert (E2 : u mod 2 ^ P = m mod 2 ^ P) by (rewrite Eu; apply Z.mod_add; lia).
  assert (Hq : 0 <= m / 2 ^ P < 2 ^ E). { split; [apply Z.div_pos; lia|]. apply Z.div_lt_upper_bound; lia. }
  assert (E3 : (u / 2 ^ P) mod 2 ^ E = m / 2 ^ P). { rewrite E1. destruct s; [|rewrite Z.add_0_r; apply Z.mod_small; lia]. replace (m / 2 ^ P + 2 ^ E) with (m / 2 ^ P + 1 * 2 ^ E) by lia. rewrite Z.mod_add by lia. apply Z.mod_small. lia. }
  pose proof (Z.mod_pos_bound m (2 ^ P) HP) as Hr. pose proof (Z.div_mod m (2 ^ P) ltac:(lia)) as Dm. unfold decode in *. rewrite E2, E3 in *. fold (negative u) in *. fold s in HN |- *. unfold infinite_magnitude.
  set (q := m / 2 ^ P) in *. set (r := m mod 2 ^ P) in *.
  destruct (Z.eqb_spec q (2 ^ E - 1)) as [Q1|Q1].
  - destruct (Z.eqb_spec r 0) as [R0|R0]; [|discriminate HN]. left. split; auto. rewrite Dm, Q1, R0. lia.
  - right. split; [nia|]. unfold scaled. fold q r. destruct (Z.eqb_spec q 0) as [Q0|Q0].
    + destruct (finite_spec s r (1 - bias f - P) ltac:(lia)) as [F1 F2]. split; auto.
    + destruct (finite_spec s (2 ^ P + r) (q - bias f - P) ltac:(lia)) as [F1 F2]. split; auto. rewrite F2. replace (q - bias f - P) with ((q - 1) + unit_exponent) by (unfold unit_exponent; lia).
      rewrite Qpower_plus by discriminate. rewrite Qmult_assoc. apply Qmult_comp; [|reflexivity].
      replace ((2 # 1) ^ (q - 1))%Q with (inject_Z 2 ^ (q - 1))%Q by reflexivity. rewrite <- Zpower_Qpower by lia. rewrite <- inject_Z_mult. destruct s; [|reflexivity]. now rewrite Z.mul_opp_l.
Qed.

Lemma number_spec : forall x : number f, 0 <= pattern x < 2 ^ width f /\ isnan (decode f (pattern x)) = false.
Proof.
  intros [u Hu]. cbn [pattern proj1_sig]. apply andb_true_iff in Hu as [Hu HN]. apply andb_true_iff in Hu as [H1 H2]. apply Z.leb_le in H1. apply Z.ltb_lt in H2. apply negb_true_iff in HN. auto.
Qed.

Lemma fp_lt_value : forall a b x y e, isfinite a = true -> isfinite b = true -> (fp_value a == inject_Z x * (2 # 1) ^ e)%Q -> (fp_value b == inject_Z y * (2 # 1) ^ e)%Q -> fp_lt a b = (x <? y).
Proof.
  intros a b x y e Ha Hb Ea Eb. apply eq_true_iff_eq. rewrite (fp_lt_finite a b Ha Hb), Ea, Eb, Z.ltb_lt. assert (HP : (0 < (2 # 1) ^ e)%Q) by (apply Qpower_0_lt; reflexivity).
  rewrite (Qmult_lt_r _ _ _ HP). rewrite <- Zlt_Qlt. reflexivity.
Qed.

Lemma scaled_lt : forall m m', 0 <= m -> 0 <= m' -> (scaled m < scaled m' <-> m < m').
Proof.
  intros m m' H H'. split; [|intros; apply scaled_mono; lia]. intros HS. destruct (Z.lt_trichotomy m m') as [|[->|G]]; auto; [lia|]. pose proof (scaled_mono m' m ltac:(lia)). lia.
Qed.
Lemma scaled_pos : forall m, 0 <= m -> (0 < scaled m <-> 0 < m).
Proof. intros m H. rewrite <- (scaled_lt 0 m) by lia. now rewrite scaled_0. Qed.

(** operator< compares the signed magnitudes. *)
Theorem less_signed_magnitude : forall x y : number f, less x y = (signed_magnitude (pattern x) <? signed_magnitude (pattern y)).
Proof.
  intros x y. unfold less, signed_magnitude. destruct (number_spec x) as [X1 X2]. destruct (number_spec y) as [Y1 Y2].
  destruct (decode_spec _ X1 X2) as [MX [[IX DX]|(IX & FX & VX)]]; destruct (decode_spec _ Y1 Y2) as [MY [[IY DY]|(IY & FY & VY)]];
  set (s := negative (pattern x)) in *; set (s' := negative (pattern y)) in *; set (m := magnitude (pattern x)) in *; set (m' := magnitude (pattern y)) in *.
  - rewrite DX, DY. cbn [fp_lt]. apply eq_true_iff_eq. rewrite Z.ltb_lt, andb_true_iff, negb_true_iff.
    assert (0 < infinite_magnitude). { unfold infinite_magnitude. pose proof pow_P. pose proof pow_E. nia. } destruct s, s'; split; intros G; try (destruct G; discriminate); try lia; auto.
  - rewrite DX. destruct (decode f (pattern y)); try discriminate FY; cbn [fp_lt]; symmetry; destruct s, s'; try (apply Z.ltb_lt; lia); apply Z.ltb_ge; lia.
  - rewrite DY. destruct (decode f (pattern x)); try discriminate FX; cbn [fp_lt]; symmetry; destruct s, s'; try (apply Z.ltb_lt; lia); apply Z.ltb_ge; lia.
  - rewrite (fp_lt_value _ _ _ _ _ FX FY VX VY). apply eq_true_iff_eq. rewrite !Z.ltb_lt. pose proof (scaled_lt m m' MX MY). pose proof (scaled_lt m' m MY MX). pose proof (scaled_pos m MX). pose proof (scaled_pos m' MY).
    pose proof (scaled_nonneg m MX). pose proof (scaled_nonneg m' MY). destruct s, s'; lia.
Qed.

Theorem less_swo : strict_weak_order (@less f).
Proof. apply (swo_key _ _ _ (fun x => signed_magnitude (pattern x)) Z.lt); [intros; rewrite less_signed_magnitude; apply Z.ltb_lt| | |]; intros; lia. Qed.

(** The key of ska_sort. *)
Lemma float_to_unsigned_spec : forall x : number f, Z.of_N (float_to_unsigned x) = if negative (pattern x) then 2 ^ width f - 1 - pattern x else pattern x + 2 ^ B.
Proof.
  intros x. destruct (number_spec x) as [X1 _]. set (u := pattern x) in *. unfold float_to_unsigned. fold u. pose proof pow_W as HW. assert (HB : 0 < 2 ^ B) by (apply Z.pow_pos_nonneg; unfold magnitude_bits; lia).
  assert (Hw : 0 <= B) by (unfold magnitude_bits; lia). assert (Ew : (Z.to_N (width f) - 1 = Z.to_N B)%N) by (unfold width; lia). rewrite Ew.
  assert (E2 : Z.of_N (2 ^ Z.to_N B) = 2 ^ B) by (rewrite N2Z.inj_pow, Z2N.id by lia; reflexivity).
  assert (Et : N.testbit (Z.to_N u) (Z.to_N B) = negative u).
  { unfold negative. apply eq_true_iff_eq. rewrite N.testbit_true, Z.leb_le. assert (Ed : Z.of_N (Z.to_N u / 2 ^ Z.to_N B) = u / 2 ^ B) by (rewrite N2Z.inj_div, E2, Z2N.id by lia; reflexivity).
    assert (Hd : 0 <= u / 2 ^ B < 2). { split; [apply Z.div_pos; lia|apply Z.div_lt_upper_bound; lia]. }
    assert (Em : ((Z.to_N u / 2 ^ Z.to_N B) mod 2 = Z.to_N u / 2 ^ Z.to_N B)%N) by (apply N.mod_small; lia). rewrite Em. split; intros H.
    - destruct (Z.le_gt_cases (2 ^ B) u); auto. rewrite Z.div_small in Ed by lia. lia.
    - assert (1 <= u / 2 ^ B) by (apply Z.div_le_lower_bound; lia). lia. }
  rewrite Et. destruct (negative u) eqn:En; unfold negative in En.
  - apply Z.leb_le in En. assert (E1 : Z.of_N (N.ones (Z.to_N (width f))) = 2 ^ width f - 1). { rewrite N.ones_equiv. rewrite N2Z.inj_pred_max, N2Z.inj_pow, Z2N.id by (unfold width; lia). cbn [Z.of_N]. change (Z.of_N 2) with 2. lia. }
    rewrite N.lor_comm, N.lor_ones_low.
    2:{ rewrite N.log2_pow2 by lia. unfold width. lia. }
    change (N.lxor (Z.to_N u) (N.ones (Z.to_N (width f)))) with (N.lnot (Z.to_N u) (Z.to_N (width f))). rewrite N.lnot_sub_low.
    2:{ apply N.log2_lt_pow2; [lia|]. apply N2Z.inj_lt. rewrite N2Z.inj_pow, !Z2N.id by (unfold width; lia). exact (proj2 X1). }
    rewrite N2Z.inj_sub, E1, Z2N.id by lia. lia.
  - apply Z.leb_gt in En. rewrite N.lor_0_l. rewrite <- N.add_nocarry_lxor.
    + rewrite N2Z.inj_add, E2, Z2N.id by lia. reflexivity.
    + apply N.bits_inj. intros k. rewrite N.land_spec, N.bits_0, N.pow2_bits_eqb. destruct (N.eqb_spec (Z.to_N B) k) as [<-|]; [rewrite Et; reflexivity|apply andb_false_r].
Qed.

Lemma float_key_mono : forall x y : number f, less x y = true -> (float_to_unsigned x < float_to_unsigned y)%N.
Proof.
  intros x y H. rewrite less_signed_magnitude in H. apply Z.ltb_lt in H. apply N2Z.inj_lt. rewrite !float_to_unsigned_spec. destruct (number_spec x) as [X1 _]. destruct (number_spec y) as [Y1 _]. pose proof pow_W.
  unfold signed_magnitude, magnitude, negative in *. destruct (Z.leb_spec (2 ^ B) (pattern x)); destruct (Z.leb_spec (2 ^ B) (pattern y)); lia.
Qed.
Lemma float_key_range : forall x : number f, Z.of_N (float_to_unsigned x) < 2 ^ width f.
Proof. intros x. rewrite float_to_unsigned_spec. destruct (number_spec x) as [X1 _]. pose proof pow_W. unfold negative. destruct (Z.leb_spec (2 ^ B) (pattern x)); lia. Qed.
End Format.

Lemma supported_bits : forall f, supported f -> 1 <= exponent_bits f /\ 1 <= fraction_bits f.
Proof. intros f [-> | ->]; cbn; lia. Qed.

Theorem float_ska_sorts : forall A f (proj : A -> number f) branchless, supported f -> sorts (by_proj less proj) (float_ska_sorter proj branchless).
Proof.
  intros A f proj branchless HF pre xs post. pose proof (supported_bits f HF) as HB.
  eapply (radix_sorts less proj float_to_unsigned branchless 128 1024 (Z.to_nat (width f / 8)) (less_swo f HB) (fun _ => True)); [| |apply Forall_forall; auto].
  - intros x y _ _. now apply float_key_mono.
  - intros x _. apply N2Z.inj_lt. pose proof (float_key_range f HB (proj x)). destruct HF as [-> | ->]; exact H.
Qed.
