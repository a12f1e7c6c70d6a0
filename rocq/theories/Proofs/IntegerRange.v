(** make_integer_range. *)
From Coq Require Import ZArith Bool List Lia.
From Verif Require Import Model.Counting Model.IntegerRange Spec.IntegerRange Proofs.Counting.
Import ListNotations.
Local Open Scope Z_scope.

Section Range.
Variable t : int_type.
Hypothesis RT : 1 <= bits t.

Lemma promoted_pos : 1 <= bits (promoted t).
Proof. unfold promoted. destruct (Z.ltb_spec (bits t) 32); simpl; lia. Qed.
Lemma fits_iff : forall u z, fits u z = true <-> type_min u <= z <= type_max u.
Proof. intros u z. unfold fits. rewrite andb_true_iff, !Z.leb_le. tauto. Qed.
Lemma range_0 : forall u, 1 <= bits u -> type_min u <= 0 <= type_max u.
Proof.
  intros u H. unfold type_min, type_max. assert (0 < 2 ^ (bits u - 1)) by (apply Z.pow_pos_nonneg; lia).
  assert (0 < 2 ^ bits u) by (apply Z.pow_pos_nonneg; lia). destruct (signed u); lia.
Qed.
Lemma promoted_range : type_min (promoted t) <= type_min t /\ type_max t <= type_max (promoted t).
Proof.
  unfold promoted. destruct (Z.ltb_spec (bits t) 32); [|lia]. unfold type_min, type_max. cbn [int32 bits signed].
  assert (2 ^ bits t <= 2 ^ 31) by (apply Z.pow_le_mono_r; lia). assert (2 ^ (bits t - 1) <= 2 ^ 31) by (apply Z.pow_le_mono_r; lia).
  change (2 ^ (32 - 1)) with (2 ^ 31). assert (0 < 2 ^ (bits t - 1)) by (apply Z.pow_pos_nonneg; lia). destruct (signed t); lia.
Qed.
Lemma constant_fits : forall z, fits (promoted t) z = true -> constant t z = Some z.
Proof.
  intros z H. unfold constant. destruct (signed (promoted t)) eqn:E; rewrite ?H; auto. f_equal. pose proof promoted_pos. apply fits_iff in H. unfold type_min, type_max in H. rewrite E in H.
  unfold convert. rewrite E. apply Z.mod_small. lia.
Qed.
Lemma constant_between : forall z a, fits (promoted t) a = true -> 0 <= z <= a -> constant t z = Some z.
Proof. intros z a H1 H2. apply constant_fits. apply fits_iff in H1. apply fits_iff. pose proof (range_0 _ promoted_pos). lia. Qed.
Lemma constant_not : forall z, 0 <= z -> fits (promoted t) z = false -> signed (promoted t) = true -> constant t z = None.
Proof. intros z H1 H2 H3. unfold constant. now rewrite H3, H2. Qed.
Lemma argument_fits : forall z, fits t z = true -> argument t z = Some z.
Proof. intros z H. unfold argument. now rewrite H. Qed.

Lemma actual_step_pos : forall s, 0 <= s -> 1 <= actual_step s.
Proof. intros s H. unfold actual_step. destruct (Z.eqb_spec s 0); lia. Qed.

Section Ends.
Variables b e s : Z.
Hypothesis Fb : fits t b = true.
Hypothesis Fe : fits t e = true.
Hypothesis Hs : 0 <= s.
Notation d := (Z.abs (e - b)).
Notation size := ((d - 1) / actual_step s + 1).
Lemma distance : (if b <? e then e - b else b - e) = d.
Proof. destruct (Z.ltb_spec b e); lia. Qed.
Lemma size_between : b <> e -> 1 <= size <= d.
Proof.
  intros H. pose proof (actual_step_pos s Hs). pose proof (Z.div_pos (d - 1) (actual_step s)). pose proof (Z.div_le_upper_bound (d - 1) (actual_step s) (d - 1)). nia.
Qed.
Lemma range_size_ok : b <> e -> fits (promoted t) d = true -> range_size t b e s = argument t size.
Proof.
  intros HN HF. unfold range_size. rewrite distance. pose proof (size_between HN). rewrite (constant_fits d HF). cbn [bind].
  rewrite (constant_between (d - 1) d) by (auto; lia). cbn [bind]. pose proof (actual_step_pos s Hs). rewrite Z.quot_div_nonneg by lia.
  rewrite (constant_between _ d) by (auto; lia). cbn [bind]. now rewrite (constant_between _ d) by (auto; lia).
Qed.
Lemma range_size_not : b <> e -> fits (promoted t) d = false -> range_size t b e s = None.
Proof.
  intros HN HF. unfold range_size. rewrite distance. destruct (signed (promoted t)) eqn:E.
  - rewrite constant_not; auto. lia.
  - exfalso. assert (promoted t = t) as EP. { unfold promoted in *. destruct (bits t <? 32); auto. discriminate. }
    rewrite EP in *. apply fits_iff in Fb, Fe. assert (fits t d = true); [|congruence]. apply fits_iff. unfold type_min in *. rewrite E in *. lia.
Qed.

Definition value (i : nat) : Z := if b <? e then b + Z.of_nat i * actual_step s else b - Z.of_nat i * actual_step s.
Lemma before_iff : forall i, b <> e -> before b e (value i) = true <-> Z.of_nat i < size.
Proof.
  intros i HN. pose proof (actual_step_pos s Hs) as H1.
  assert (before b e (value i) = true <-> Z.of_nat i * actual_step s <= d - 1) as ->.
  { unfold before, value. destruct (Z.ltb_spec b e); rewrite Z.ltb_lt; lia. }
  split; intros H.
  - assert (Z.of_nat i <= (d - 1) / actual_step s); [|lia]. apply Z.div_le_lower_bound; lia.
  - assert (Z.of_nat i <= (d - 1) / actual_step s) as H2 by lia. pose proof (Z.mul_div_le (d - 1) (actual_step s)). nia.
Qed.
Lemma element_ok : forall i, b <> e -> fits (promoted t) d = true -> Z.of_nat i < size -> range_element t b (actual_step s) (b <? e) (Z.of_nat i) = Some (value i).
Proof.
  intros i HN HF Hi. pose proof (actual_step_pos s Hs) as H1. apply before_iff in Hi; auto.
  assert (Z.of_nat i * actual_step s <= d - 1) as H2. { unfold before, value in Hi. destruct (Z.ltb_spec b e); rewrite Z.ltb_lt in Hi; lia. }
  unfold range_element. rewrite (constant_between _ d) by (auto; nia). cbn [bind].
  assert (fits t (value i) = true) as FV.
  { apply fits_iff in Fb, Fe. apply fits_iff. unfold value. destruct (Z.ltb_spec b e); nia. }
  replace (if b <? e then Z.of_nat i * actual_step s + b else b - Z.of_nat i * actual_step s) with (value i) by (unfold value; destruct (b <? e); lia).
  rewrite constant_fits. { cbn [bind]. now apply argument_fits. }
  apply fits_iff in FV. apply fits_iff. pose proof promoted_range. lia.
Qed.
Lemma all_map : forall (f : nat -> option Z) (g : nat -> Z) l, (forall i, In i l -> f i = Some (g i)) -> all (map f l) = Some (map g l).
Proof.
  intros f g. induction l as [|i l IH]; intros H; auto. cbn [map all]. rewrite (H i) by (simpl; auto). cbn [bind]. rewrite IH by (intros; apply H; simpl; auto). reflexivity.
Qed.
Lemma nth_error_map_seq : forall (g : nat -> Z) n i, nth_error (map g (seq 0 n)) i = if (i <? n)%nat then Some (g i) else None.
Proof.
  intros g n i. destruct (Nat.ltb_spec i n) as [H|H].
  - rewrite nth_error_map. rewrite (nth_error_nth' (seq 0 n) 0%nat) by (rewrite seq_length; lia). rewrite seq_nth by lia. reflexivity.
  - apply nth_error_None. rewrite map_length, seq_length. lia.
Qed.
Theorem make_integer_range_ok : b <> e -> fits (promoted t) d = true -> fits t size = true ->
  exists l, make_integer_range t b e s = Some l /\ is_range b e (actual_step s) l.
Proof.
  intros HN HF HS. pose proof (size_between HN). exists (map value (seq 0 (Z.to_nat size))). split.
  - unfold make_integer_range. rewrite range_size_ok by auto. rewrite argument_fits by auto. cbn [bind]. destruct (Z.ltb_spec size 0); [lia|].
    apply all_map. intros i Hi. apply in_seq in Hi. apply element_ok; auto. lia.
  - intros i. rewrite nth_error_map_seq. cbv zeta. fold (value i). destruct (Nat.ltb_spec i (Z.to_nat size)) as [Hi|Hi].
    + assert (before b e (value i) = true) as -> by (apply before_iff; auto; lia). reflexivity.
    + destruct (before b e (value i)) eqn:E; auto. apply before_iff in E; auto. lia.
Qed.
Theorem make_integer_range_not : b <> e -> fits (promoted t) d && fits t size = false -> make_integer_range t b e s = None.
Proof.
  intros HN HF. unfold make_integer_range. destruct (fits (promoted t) d) eqn:E; cbn [andb] in HF.
  - rewrite range_size_ok by auto. unfold argument. now rewrite HF.
  - now rewrite range_size_not.
Qed.
End Ends.

(** With equal bounds. *)
Lemma quot_m1 : forall s, 2 <= s -> Z.quot (-1) s = 0.
Proof. intros s H. change (-1) with (- (1)). rewrite (Z.quot_opp_l 1 s) by lia. rewrite Z.quot_small by lia. reflexivity. Qed.
Theorem make_integer_range_same : forall b s, fits t b = true -> 0 <= s -> signed (promoted t) = true ->
  2 <= bits t \/ signed t = false -> make_integer_range t b b s = Some (if s <=? 1 then [] else [b]).
Proof.
  intros b s Fb Hs HS HB. unfold make_integer_range, range_size. rewrite Z.ltb_irrefl, Z.sub_diag.
  pose proof (range_0 _ promoted_pos) as R0. pose proof (range_0 _ RT) as R1. pose proof promoted_range as PR.
  assert (type_min (promoted t) <= -1) as RM.
  { unfold type_min. rewrite HS. pose proof promoted_pos. assert (0 < 2 ^ (bits (promoted t) - 1)) by (apply Z.pow_pos_nonneg; lia). lia. }
  assert (forall z, -1 <= z <= 0 -> constant t z = Some z) as C. { intros z Hz. apply constant_fits, fits_iff. lia. }
  rewrite (C 0) by lia. cbn [bind]. rewrite (C (0 - 1)) by lia. cbn [bind]. change (0 - 1) with (-1). destruct (Z.leb_spec s 1).
  - assert (actual_step s = 1) as -> by (unfold actual_step; destruct (Z.eqb_spec s 0); lia). change (Z.quot (-1) 1) with (-1).
    rewrite (C (-1)) by lia. cbn [bind]. change (-1 + 1) with 0. rewrite (C 0) by lia. cbn [bind]. rewrite argument_fits by (apply fits_iff; lia). reflexivity.
  - assert (actual_step s = s) as -> by (unfold actual_step; destruct (Z.eqb_spec s 0); lia). rewrite quot_m1 by lia. rewrite (C 0) by lia. cbn [bind]. change (0 + 1) with 1.
    assert (1 <= type_max t) as M1.
    { unfold type_max. destruct (signed t). { destruct HB as [HB|]; [|discriminate]. assert (2 ^ 1 <= 2 ^ (bits t - 1)) by (apply Z.pow_le_mono_r; lia). lia. }
      assert (2 ^ 1 <= 2 ^ bits t) by (apply Z.pow_le_mono_r; lia). lia. }
    rewrite (constant_fits 1) by (apply fits_iff; lia). cbn [bind]. rewrite argument_fits by (apply fits_iff; lia). cbn [bind].
    change (1 <? 0) with false. change (Z.to_nat 1) with 1%nat. cbn [seq map all]. unfold range_element. cbn [Z.of_nat Z.mul].
    rewrite (C 0) by lia. cbn [bind]. rewrite Z.sub_0_r. apply fits_iff in Fb. rewrite constant_fits by (apply fits_iff; lia). cbn [bind].
    rewrite argument_fits by (now apply fits_iff). reflexivity.
Qed.

(** With a negative step. *)
Theorem make_integer_range_negative : forall b e s, signed t = true -> 2 <= bits t -> fits t b = true -> fits t e = true -> s < 0 -> b <> e ->
  make_integer_range t b e s =
  if fits (promoted t) (Z.abs (e - b)) then
    if Z.abs (e - b) - 1 <? - s then Some [b] else if Z.abs (e - b) - 1 <? 2 * - s then Some [] else None
  else None.
Proof.
  intros b e s ST HB Fb Fe Hs HN. set (d := Z.abs (e - b)). assert (1 <= d) as Hd by (unfold d; lia).
  assert (signed (promoted t) = true) as SP by (unfold promoted; destruct (bits t <? 32); auto).
  assert (E1 : (if b <? e then e - b else b - e) = d) by (unfold d; destruct (Z.ltb_spec b e); lia).
  unfold make_integer_range, range_size. rewrite E1. destruct (fits (promoted t) d) eqn:FD; [|now rewrite constant_not by (auto; lia)].
  rewrite (constant_fits d FD). cbn [bind]. rewrite (constant_between (d - 1) d) by (auto; lia). cbn [bind].
  assert (actual_step s = s) as -> by (unfold actual_step; destruct (Z.eqb_spec s 0); lia).
  assert (EQ : Z.quot (d - 1) s = - ((d - 1) / - s)).
  { replace s with (- - s) at 1 by lia. rewrite Z.quot_opp_r by lia. now rewrite Z.quot_div_nonneg by lia. }
  rewrite EQ. set (k := (d - 1) / - s). pose proof (Z.div_mod (d - 1) (- s) ltac:(lia)) as DM. pose proof (Z.mod_pos_bound (d - 1) (- s) ltac:(lia)) as MB. fold k in DM.
  assert (0 <= k <= d - 1) as Hk by nia.
  assert (type_min (promoted t) <= - d /\ 1 <= type_max (promoted t)) as [RM R1].
  { apply fits_iff in FD. unfold type_min, type_max in *. rewrite SP in *. pose proof promoted_pos. lia. }
  rewrite (constant_fits (- k)) by (apply fits_iff; lia). cbn [bind]. rewrite (constant_fits (- k + 1)) by (apply fits_iff; lia). cbn [bind].
  assert (type_min t <= 0 /\ 1 <= type_max t) as [RT0 RT1].
  { pose proof (range_0 _ RT). split; [lia|]. unfold type_max. rewrite ST. assert (2 ^ 1 <= 2 ^ (bits t - 1)) by (apply Z.pow_le_mono_r; lia). lia. }
  destruct (Z.ltb_spec (d - 1) (- s)).
  - assert (k = 0) as -> by nia. change (- 0 + 1) with 1. rewrite argument_fits by (apply fits_iff; lia). cbn [bind]. change (1 <? 0) with false. cbv iota.
    change (Z.to_nat 1) with 1%nat. cbn [seq map all]. unfold range_element. change (Z.of_nat 0 * s) with 0. pose proof (range_0 _ promoted_pos).
    rewrite (constant_fits 0) by (apply fits_iff; lia). cbn [bind]. replace (if b <? e then 0 + b else b - 0) with b by (destruct (b <? e); lia).
    apply fits_iff in Fb. pose proof promoted_range. rewrite constant_fits by (apply fits_iff; lia). cbn [bind]. rewrite argument_fits by (now apply fits_iff). reflexivity.
  - destruct (Z.ltb_spec (d - 1) (2 * - s)).
    + assert (k = 1) as -> by nia. change (- (1) + 1) with 0. rewrite argument_fits by (apply fits_iff; lia). reflexivity.
    + assert (2 <= k) by nia. unfold argument. destruct (fits t (- k + 1)); auto. cbn [bind]. destruct (Z.ltb_spec (- k + 1) 0); [reflexivity|lia].
Qed.
End Range.
