(** Counting sort. *)
From Coq Require Import List Arith Lia Permutation Bool ZArith.
From Verif Require Import Spec.Order Lang.Mem Spec.Sorts Proofs.Wp Proofs.OrderLib Model.Basic Proofs.Basic Proofs.IndexLib Proofs.Fixed Model.Counting.
Import ListNotations.
Local Open Scope nat_scope.

Section MinMax.
Context {A T : Type} (comp : T -> T -> bool) (proj : A -> T).
Notation lt := (by_proj comp proj).
Hypothesis HW : strict_weak_order lt.
Notation le := (OrderLib.le lt).

Definition bounds (f l mn mx : nat) (m : mem A) : Prop :=
  f <= mn < l /\ f <= mx < l /\ exists a b, nth_error m mn = Some (Val a) /\ nth_error m mx = Some (Val b) /\
    forall k x, f <= k < l -> nth_error m k = Some (Val x) -> lt x a = false /\ lt b x = false.

Lemma minmax_and_sorted_wp : forall f l m, f <= l -> full f l m ->
  wp (minmax_element_and_is_sorted comp proj f l)
     (fun '(mn, mx, srt) m' => m' = m /\ if srt : bool then sorted_range lt f l m else bounds f l mn mx m) m.
Proof.
  intros f l m Hfl HF. unfold minmax_element_and_is_sorted.
  destruct (Nat.eqb_spec f l) as [->|E1]. { apply wp_ret. split; auto. intros i j. lia. }
  destruct (Nat.eqb_spec (S f) l) as [<-|E2]. { apply wp_ret. split; auto. intros i j. lia. }
  apply wp_bind.
  apply wp_loop' with (I := fun c m' => m' = m /\ f <= c /\ S c < l /\ sorted_range lt f (S c) m) (mu := fun c => l - c); [|lia|].
  { cj; auto; try lia. intros i j. lia. }
  intros c m' (-> & Hc & Hcl & HS). apply wp_bind.
  rdv HF c x Hx. rdv HF (S c) y Hy. eapply wp_less_at; [exact Hy|exact Hx|].
  destruct (lt y x) eqn:E.
  - apply wp_ret. apply wp_bind. unfold minmax_element.
    apply wp_mono with (Q := fun '(mn, mx) m' => m' = m /\ bounds (S c) l mn mx m).
    { assert (S (S c) = l -> wp (ret (S c, S c)) (fun '(mn, mx) m' => m' = m /\ bounds (S c) l mn mx m) m) as H1.
      { intros Hl. apply wp_ret. split; auto. split; [lia|]. split; [lia|]. exists y, y. cj; auto.
        intros k z Hk Hz. assert (k = S c) by lia. subst k. assert (z = y) by congruence. subst. split; apply lt_irrefl; auto. }
      destruct (Nat.eqb_spec (S c) l); [lia|]. cbn [orb]. destruct (Nat.eqb_spec (S (S c)) l); auto.
      eapply wp_mono; [apply unchecked_minmax_element_wp; [lia|]|].
      { destruct HF as [H2 H3]. split; auto. intros k Hk. apply H3. lia. }
      intros [mn mx] m' (-> & B1 & B2 & B3). destruct (B3 HW) as ((_ & a & Ha & Ha') & (_ & b & Hb & Hb') & _).
      split; auto. split; [lia|]. split; [lia|]. exists a, b. cj; auto. intros k z Hk Hz. split; [apply (Ha' k)|apply (Hb' k)]; auto. }
    intros [mn mx] m' (-> & B1 & B2 & a & b & Ha & Hb & HB).
    rdv HF f x0 Hx0.
    apply wp_bind. eapply wp_less_at; [exact Ha|exact Hx0|]. apply wp_bind. eapply wp_less_at; [exact Hb|exact Hx|]. apply wp_ret.
    split; auto.
    assert (forall k z, f <= k < l -> nth_error m k = Some (Val z) -> (lt z x0 = false \/ lt z a = false) /\ (lt x z = false \/ lt b z = false)) as HK.
    { intros k z Hk Hz. destruct (le_lt_dec k c) as [Hkc|Hkc].
      - split; left.
        + destruct (Nat.eq_dec f k) as [->|]; [assert (z = x0) by congruence; subst; apply lt_irrefl; auto|]. apply (HS f k); auto; lia.
        + destruct (Nat.eq_dec c k) as [->|]; [assert (z = x) by congruence; subst; apply lt_irrefl; auto|]. apply (HS k c); auto; lia.
      - destruct (HB k z) as [K1 K2]; auto. lia. }
    split; [destruct (lt a x0); lia|]. split; [destruct (lt b x); lia|].
    exists (if lt a x0 then a else x0), (if lt b x then x else b). cj.
    + now destruct (lt a x0).
    + now destruct (lt b x).
    + intros k z Hk Hz. destruct (HK k z Hk Hz) as [K1 K2]. split.
      * destruct (lt a x0) eqn:C1; destruct K1 as [K1|K1]; auto.
        -- apply (le_trans lt HW a x0 z); auto. now apply lt_asym.
        -- apply (le_trans lt HW x0 a z); auto.
      * destruct (lt b x) eqn:C2; destruct K2 as [K2|K2]; auto.
        -- apply (le_trans lt HW z b x); auto. now apply lt_asym.
        -- apply (le_trans lt HW z x b); auto.
  - assert (sorted_range lt f (S (S c)) m) as HS'.
    { intros i j u v Hi Hij Hj Hu Hv. destruct (Nat.eq_dec j (S c)) as [->|]; [|apply (HS i j); auto; lia].
      assert (v = y) by congruence. subst. destruct (Nat.eq_dec i c) as [->|]; [congruence|]. apply (le_trans lt HW) with x; auto. apply (HS i c); auto; lia. }
    destruct (Nat.eqb_spec (S (S c)) l) as [El|El]; apply wp_ret.
    + apply wp_ret. split; auto. now rewrite <- El.
    + cj; auto; lia.
Qed.
End MinMax.

Lemma fill_n_wp : forall count (rest : list Z) pre post first v (Q : nat -> mem Z -> Prop), length rest = count -> first = length pre ->
  Q (first + count) (pre ++ map Val (repeat v count) ++ post) ->
  wp (fill_n first count v) Q (pre ++ map Val rest ++ post).
Proof.
  induction count as [|n IH]; intros rest pre post first v Q HL -> HQ; cbn [fill_n].
  - destruct rest; [|discriminate]. apply wp_ret. now rewrite Nat.add_0_r in HQ.
  - destruct rest as [|x rest]; [discriminate|]. apply wp_bind. reshape (pre ++ Val x :: map Val rest ++ post). apply wp_put_at; auto; [discriminate|].
    reshape ((pre ++ [Val v]) ++ map Val rest ++ post). apply IH. { simpl in HL. lia. } { lens. }
    replace (S (length pre) + n) with (length pre + S n) by lia. replace ((pre ++ [Val v]) ++ map Val (repeat v n) ++ post) with (pre ++ map Val (repeat v (S n)) ++ post) by solve_app. auto.
Qed.

Local Open Scope Z_scope.
Definition real_type (t : int_type) : Prop := bits t = 8 \/ bits t = 16 \/ bits t = 32 \/ bits t = 64 \/ bits t = 128.

Section Types.
Variable t : int_type.
Hypothesis HT : real_type t.

Lemma type_bounds : type_min t <= 0 < type_max t.
Proof. unfold type_min, type_max. destruct HT as [->|[->|[->|[->| ->]]]]; destruct (signed t); simpl; lia. Qed.

Lemma convert_fits : forall u z, real_type u -> fits u z = true -> convert u z = z.
Proof.
  intros u z HU HF. unfold fits in HF. apply andb_true_iff in HF as [H1 H2]. apply Z.leb_le in H1, H2. unfold convert, type_min, type_max in *.
  assert (0 < 2 ^ (bits u - 1) /\ 2 ^ bits u = 2 * 2 ^ (bits u - 1)) as [P E].
  { destruct HU as [->|[->|[->|[->| ->]]]]; simpl; lia. }
  destruct (signed u); rewrite Z.mod_small; lia.
Qed.

Lemma arith_ok : forall A z, fits (promoted t) z = true -> arith (A := A) t z = ret z.
Proof.
  intros A z H. unfold arith. destruct (signed (promoted t)) eqn:E; [now rewrite H|]. rewrite convert_fits; auto.
  unfold promoted. destruct (_ <? _); auto. unfold real_type, int32; simpl. lia.
Qed.

Lemma fits_promoted : forall z, type_min t - 1 <= z <= type_max t + 1 -> bits t < 32 -> fits (promoted t) z = true.
Proof.
  intros z Hz Hb. unfold promoted. destruct (Z.ltb_spec (bits t) 32); [|lia]. unfold fits, int32, type_min, type_max in *. simpl.
  apply andb_true_iff. rewrite !Z.leb_le. destruct HT as [E|[E|[E|[E|E]]]]; rewrite E in *; destruct (signed t); simpl in Hz; lia.
Qed.

Lemma diff_fits : forall x y, fits t x = true -> fits t y = true -> x <= y -> (32 <= bits t -> y - x < type_max t) ->
  fits (promoted t) (y - x) = true /\ fits (promoted t) (y - x + 1) = true.
Proof.
  intros x y Hx Hy Hxy Hb. pose proof type_bounds as TB. unfold fits in Hx, Hy. apply andb_true_iff in Hx as [X1 X2], Hy as [Y1 Y2].
  apply Z.leb_le in X1, X2, Y1, Y2. unfold promoted. destruct (Z.ltb_spec (bits t) 32).
  - unfold fits, int32, type_min, type_max in *. simpl. rewrite !andb_true_iff, !Z.leb_le.
    destruct HT as [E|[E|[E|[E|E]]]]; rewrite E in *; destruct (signed t); simpl in *; lia.
  - specialize (Hb H). unfold fits. rewrite !andb_true_iff, !Z.leb_le. lia.
Qed.

Lemma make_counts_ok : forall mn mx, fits t mn = true -> fits t mx = true -> mn <= mx ->
  (32 <= bits t -> mx - mn < Z.min (type_max t) (type_max ptrdiff)) ->
  make_counts t mn mx = ret (repeat 0%nat (Z.to_nat (mx - mn + 1))).
Proof.
  intros mn mx Hn Hx Hle Hb. unfold make_counts. destruct (diff_fits mn mx) as [F1 F2]; auto. { lia. }
  rewrite (arith_ok _ _ F1). cbn [bind ret]. unfold bind at 1, ret at 1. rewrite (arith_ok _ _ F2). unfold bind, ret.
  rewrite convert_fits.
  - destruct (Z.leb_spec (mx - mn + 1) 0); [lia|reflexivity].
  - unfold real_type, ptrdiff; simpl; lia.
  - destruct (Z.le_gt_cases 32 (bits t)) as [H|H].
    + specialize (Hb H). unfold fits. rewrite andb_true_iff, !Z.leb_le. change (type_min ptrdiff) with (-9223372036854775808). lia.
    + unfold promoted in F2. apply Z.lt_gt, Z.gt_lt, Z.ltb_lt in H. rewrite H in F2. unfold fits in *. apply andb_true_iff in F2 as [K1 K2]. apply Z.leb_le in K1, K2.
      change (type_max int32) with 2147483647 in K2. change (type_min int32) with (-2147483648) in K1.
      rewrite andb_true_iff, !Z.leb_le. change (type_max ptrdiff) with 9223372036854775807. change (type_min ptrdiff) with (-9223372036854775808). lia.
Qed.

Lemma index_ok : forall mn mx x, fits t mn = true -> fits t mx = true -> mn <= x <= mx ->
  (32 <= bits t -> mx - mn < Z.min (type_max t) (type_max ptrdiff)) ->
  arith (A := Z) t (x - mn) = ret (x - mn) /\ convert ptrdiff (x - mn) = x - mn.
Proof.
  intros mn mx x Hn Hx Hle Hb. assert (fits t x = true) as Hfx. { unfold fits in *. rewrite !andb_true_iff, !Z.leb_le in *. lia. }
  destruct (diff_fits mn x) as [F1 F2]; auto; try lia. split; [now apply arith_ok|]. apply convert_fits. { unfold real_type, ptrdiff; simpl; lia. }
  destruct (Z.le_gt_cases 32 (bits t)) as [H|H].
  - specialize (Hb H). unfold fits. rewrite andb_true_iff, !Z.leb_le. change (type_min ptrdiff) with (-9223372036854775808). lia.
  - unfold promoted in F1. apply Z.lt_gt, Z.gt_lt, Z.ltb_lt in H. rewrite H in F1. unfold fits in *. apply andb_true_iff in F1 as [K1 K2]. apply Z.leb_le in K1, K2.
    change (type_max int32) with 2147483647 in K2. change (type_min int32) with (-2147483648) in K1.
    rewrite andb_true_iff, !Z.leb_le. change (type_max ptrdiff) with 9223372036854775807. change (type_min ptrdiff) with (-9223372036854775808). lia.
Qed.

Lemma step_ok : forall v z, fits t v = true -> v - 1 <= z <= v + 1 -> (32 <= bits t -> signed t = true -> fits t z = true) ->
  exists r, step (A := Z) t z = ret r /\ (fits t z = true -> r = z).
Proof.
  intros v z Hv Hz Hs. unfold step. destruct (Z.le_gt_cases 32 (bits t)) as [H|H].
  - unfold arith, promoted. destruct (Z.ltb_spec (bits t) 32); [lia|]. destruct (signed t) eqn:E.
    + rewrite Hs; auto. exists z. split; auto. unfold bind, ret. rewrite convert_fits; auto.
    + unfold bind, ret. eexists. split; [reflexivity|]. intros HF. rewrite !convert_fits; auto. rewrite convert_fits; auto.
  - rewrite arith_ok. { unfold bind, ret. eexists. split; [reflexivity|]. intros HF. now apply convert_fits. }
    apply fits_promoted; auto. unfold fits in Hv. rewrite andb_true_iff, !Z.leb_le in Hv. lia.
Qed.

(** The counts. *)
Notation occ := (count_occ Z.eq_dec).
Definition tally (mn : Z) (n : nat) (xs : list Z) : list nat := map (fun i => occ xs (mn + Z.of_nat i)) (seq 0 n).

Lemma tally_nil : forall mn n, tally mn n [] = repeat 0%nat n.
Proof.
  intros. unfold tally. simpl. generalize 0%nat at 2. induction n as [|n IH]; intros k; simpl; auto. f_equal. apply IH.
Qed.

Lemma upd_map_seq : forall (f g : nat -> nat) k n s, (k < n)%nat -> (forall i, i <> (s + k)%nat -> f i = g i) ->
  upd k (g (s + k)%nat) (map f (seq s n)) = map g (seq s n).
Proof.
  intros f g k n. revert k. induction n as [|n IH]; intros k s Hk H; [lia|]. simpl. destruct k as [|k]; simpl.
  - rewrite Nat.add_0_r in *. f_equal. apply map_ext_in. intros i Hi. apply in_seq in Hi. apply H. lia.
  - f_equal; [apply H; lia|]. replace (s + S k)%nat with (S s + k)%nat by lia. apply IH; [lia|]. intros i Hi. apply H. lia.
Qed.
Lemma nth_tally : forall mn n xs k, (k < n)%nat -> nth_error (tally mn n xs) k = Some (occ xs (mn + Z.of_nat k)).
Proof.
  intros. unfold tally. apply (map_nth_error (fun i => occ xs (mn + Z.of_nat i)) k (seq 0 n)).
  rewrite nth_error_nth' with (d := 0%nat) by (rewrite seq_length; lia). now rewrite seq_nth by lia.
Qed.
Lemma tally_snoc : forall mn n xs x, mn <= x -> (Z.to_nat (x - mn) < n)%nat ->
  upd (Z.to_nat (x - mn)) (S (occ xs x)) (tally mn n xs) = tally mn n (xs ++ [x]).
Proof.
  intros mn n xs x H1 H2. unfold tally.
  replace (S (occ xs x)) with ((fun i => occ (xs ++ [x]) (mn + Z.of_nat i)) (0 + Z.to_nat (x - mn))%nat).
  - apply (upd_map_seq (fun i => occ xs (mn + Z.of_nat i)) (fun i => occ (xs ++ [x]) (mn + Z.of_nat i)) (Z.to_nat (x - mn)) n 0); auto. intros i Hi. simpl in Hi. rewrite count_occ_app. simpl. destruct (Z.eq_dec x (mn + Z.of_nat i)); lia.
  - simpl. replace (mn + Z.of_nat (Z.to_nat (x - mn))) with x by lia. rewrite count_occ_app. simpl. destruct (Z.eq_dec x x); lia.
Qed.

Lemma count_values_wp : forall xs pre post mn mx (Q : list nat -> mem Z -> Prop),
  fits t mn = true -> fits t mx = true -> (forall x, In x xs -> mn <= x <= mx) ->
  (32 <= bits t -> mx - mn < Z.min (type_max t) (type_max ptrdiff)) ->
  Q (tally mn (Z.to_nat (mx - mn + 1)) xs) (pre ++ map Val xs ++ post) ->
  wp (count_values t (length pre) (length pre + length xs) mn (repeat 0%nat (Z.to_nat (mx - mn + 1)))) Q (pre ++ map Val xs ++ post).
Proof.
  intros xs pre post mn mx Q Hn Hx HB Hb HQ. unfold count_values.
  apply wp_loop' with (I := fun '(it, counts) m => m = pre ++ map Val xs ++ post /\ exists a b, xs = a ++ b /\ it = (length pre + length a)%nat /\ counts = tally mn (Z.to_nat (mx - mn + 1)) a)
    (mu := fun '(it, _) => (length pre + length xs - it)%nat).
  - split; auto. exists [], xs. cj; auto. now rewrite tally_nil.
  - lia.
  - intros [it counts] m (-> & a & b & -> & -> & ->). rewrite app_length. destruct b as [|x b].
    + rewrite app_nil_r in *. simpl. rewrite Nat.add_0_r, Nat.eqb_refl. now apply wp_ret.
    + simpl length. destruct (Nat.eqb_spec (length pre + length a) (length pre + (length a + S (length b)))); [lia|].
      assert (mn <= x <= mx) as HX. { apply HB. apply in_app_iff; simpl; auto. }
      apply wp_bind. reshape ((pre ++ map Val a) ++ Val x :: map Val b ++ post). apply wp_get_at. { lens. }
      destruct (index_ok mn mx x) as [I1 I2]; auto. rewrite I1. apply wp_bind, wp_ret. rewrite I2.
      destruct (Z.ltb_spec (x - mn) 0); [lia|]. rewrite nth_tally by lia. apply wp_ret. cj; [solve_app| |lia].
      exists (a ++ [x]), b. cj; [solve_app|lens|]. replace (mn + Z.of_nat (Z.to_nat (x - mn))) with x by lia. apply tally_snoc; lia.
Qed.

(** The values written. *)
Fixpoint spread (inc : Z) (cs : list nat) (v : Z) : list Z :=
  match cs with [] => [] | c :: cs => repeat v c ++ spread inc cs (v + inc) end.

Lemma fill_counts_wp : forall inc cs rest pre post first v (Q : unit -> mem Z -> Prop),
  (inc = 1 \/ inc = -1) -> length rest = length (spread inc cs v) -> first = length pre ->
  (forall i, (i < length cs)%nat -> fits t (v + inc * Z.of_nat i) = true) ->
  (32 <= bits t -> signed t = true -> fits t (v + inc * Z.of_nat (length cs)) = true) ->
  Q tt (pre ++ map Val (spread inc cs v) ++ post) ->
  wp (fill_counts t inc cs first v) Q (pre ++ map Val rest ++ post).
Proof.
  intros inc. induction cs as [|c cs IH]; intros rest pre post first v Q Hi HL -> HF HE HQ; cbn [fill_counts].
  - destruct rest; [|discriminate]. now apply wp_ret.
  - cbn [spread] in HL. rewrite app_length, repeat_length in HL.
    assert (rest = firstn c rest ++ skipn c rest) as ER by (now rewrite firstn_skipn).
    assert (length (firstn c rest) = c) as L1 by (rewrite firstn_length; lia).
    assert (length (skipn c rest) = length (spread inc cs (v + inc))) as L2 by (rewrite skipn_length; lia).
    set (r1 := firstn c rest) in *. set (r2 := skipn c rest) in *. clearbody r1 r2. subst rest. clear HL.
    destruct (step_ok v (v + inc)) as (r & E & Er).
    + specialize (HF 0%nat). simpl in HF. replace (v + inc * 0) with v in HF by lia. apply HF. lia.
    + lia.
    + intros Hb Hs. destruct cs as [|c' cs]. { simpl length in HE. replace (v + inc * Z.of_nat 1) with (v + inc) in HE by lia. auto. }
      specialize (HF 1%nat). replace (v + inc * Z.of_nat 1) with (v + inc) in HF by lia. apply HF. simpl. lia.
    + rewrite E. apply wp_bind, wp_ret. apply wp_bind.
      reshape (pre ++ map Val r1 ++ map Val r2 ++ post). apply fill_n_wp; auto.
      destruct cs as [|c' cs].
      * cbn [fill_counts spread] in *. destruct r2; [|discriminate]. apply wp_ret.
        replace (pre ++ map Val (repeat v c) ++ map Val [] ++ post) with (pre ++ map Val (repeat v c ++ []) ++ post) by solve_app. auto.
      * rewrite Er.
        2:{ specialize (HF 1%nat). replace (v + inc * Z.of_nat 1) with (v + inc) in HF by lia. apply HF. simpl. lia. }
        reshape ((pre ++ map Val (repeat v c)) ++ map Val r2 ++ post). apply IH; auto.
        -- lens. 
        -- intros i Hlt. replace (v + inc + inc * Z.of_nat i) with (v + inc * Z.of_nat (S i)) by lia. apply HF. simpl in *. lia.
        -- intros Hb Hs. replace (v + inc + inc * Z.of_nat (length (c' :: cs))) with (v + inc * Z.of_nat (length (c :: c' :: cs))) by (simpl length; lia). auto.
        -- replace ((pre ++ map Val (repeat v c)) ++ map Val (spread inc (c' :: cs) (v + inc)) ++ post) with (pre ++ map Val (spread inc (c :: c' :: cs) v) ++ post); auto.
           change (spread inc (c :: c' :: cs) v) with (repeat v c ++ spread inc (c' :: cs) (v + inc)). solve_app.
Qed.
End Types.

Lemma spread_app : forall inc a b v, spread inc (a ++ b) v = spread inc a v ++ spread inc b (v + inc * Z.of_nat (length a)).
Proof.
  induction a as [|c a IH]; intros b v. { simpl. f_equal. lia. }
  cbn [spread app]. rewrite IH, <- app_assoc. do 3 f_equal. simpl length. lia.
Qed.
Lemma rev_repeat : forall X (x : X) n, rev (repeat x n) = repeat x n.
Proof. induction n as [|n IH]; auto. simpl. rewrite IH. now rewrite <- repeat_cons. Qed.
Lemma spread_rev : forall cs v, spread (-1) (rev cs) (v + Z.of_nat (length cs) - 1) = rev (spread 1 cs v).
Proof.
  induction cs as [|c cs IH]; intros v; auto. cbn [rev spread]. rewrite spread_app, rev_app_distr, rev_repeat, <- IH. rewrite rev_length.
  f_equal.
  - f_equal. simpl length. lia.
  - simpl length. cbn [spread]. rewrite app_nil_r. f_equal. lia.
Qed.
Lemma spread_ge : forall cs v z, In z (spread 1 cs v) -> v <= z.
Proof.
  induction cs as [|c cs IH]; intros v z; simpl; [tauto|]. intros H. apply in_app_or in H as [H|H]; [apply repeat_spec in H; lia|]. apply IH in H. lia.
Qed.
Lemma repeat_sorted : forall lt (v : Z) n, lt v v = false -> sorted lt (repeat v n).
Proof. intros lt v n H. induction n; simpl; [apply sorted_nil|]. apply sorted_cons. split; auto. intros y Hy. apply repeat_spec in Hy. subst. auto. Qed.
Lemma spread_sorted : forall cs v, sorted Z.ltb (spread 1 cs v).
Proof.
  induction cs as [|c cs IH]; intros v; cbn [spread]; [apply sorted_nil|]. apply sorted_app. cj; auto.
  - apply repeat_sorted. apply Z.ltb_irrefl.
  - intros x y Hx Hy. apply repeat_spec in Hx. apply spread_ge in Hy. red. apply Z.ltb_ge. lia.
Qed.
Lemma spread_rev_sorted : forall cs v, sorted Z.gtb (rev (spread 1 cs v)).
Proof.
  induction cs as [|c cs IH]; intros v; cbn [spread]; [apply sorted_nil|]. rewrite rev_app_distr, rev_repeat. apply sorted_app. cj; auto.
  - apply repeat_sorted. unfold Z.gtb. now rewrite Z.compare_refl.
  - intros x y Hx Hy. apply repeat_spec in Hy. apply in_rev, spread_ge in Hx. red. rewrite Z.gtb_ltb. apply Z.ltb_ge. lia.
Qed.

Notation occ := (count_occ Z.eq_dec).
Lemma occ_repeat : forall v n z, occ (repeat v n) z = if Z.eq_dec v z then n else 0%nat.
Proof. induction n as [|n IH]; intros z; simpl; [now destruct (Z.eq_dec v z)|]. rewrite IH. now destruct (Z.eq_dec v z). Qed.
Lemma occ_spread : forall xs mn n s z, occ (spread 1 (map (fun i => occ xs (mn + Z.of_nat i)) (seq s n)) (mn + Z.of_nat s)) z =
  if (mn + Z.of_nat s <=? z) && (z <? mn + Z.of_nat s + Z.of_nat n) then occ xs z else 0%nat.
Proof.
  intros xs mn. induction n as [|n IH]; intros s z; cbn [seq map spread].
  - simpl. destruct (Z.leb_spec (mn + Z.of_nat s) z), (Z.ltb_spec z (mn + Z.of_nat s + 0)); auto; lia.
  - rewrite count_occ_app, occ_repeat. replace (mn + Z.of_nat s + 1) with (mn + Z.of_nat (S s)) by lia. rewrite IH.
    destruct (Z.eq_dec (mn + Z.of_nat s) z) as [E|E]; [subst z|];
    repeat match goal with |- context [?a <=? ?b] => destruct (Z.leb_spec a b) | |- context [?a <? ?b] => destruct (Z.ltb_spec a b) end; simpl; lia.
Qed.
Lemma spread_permutation : forall xs mn mx, (forall x, In x xs -> mn <= x <= mx) ->
  Permutation xs (spread 1 (tally mn (Z.to_nat (mx - mn + 1)) xs) mn).
Proof.
  intros xs mn mx HB. apply (Permutation_count_occ Z.eq_dec). intros z. unfold tally.
  pose proof (occ_spread xs mn (Z.to_nat (mx - mn + 1)) 0 z) as H. replace (mn + Z.of_nat 0) with mn in H by lia. rewrite H.
  destruct (Z.leb_spec mn z), (Z.ltb_spec z (mn + Z.of_nat (Z.to_nat (mx - mn + 1)))); auto; simpl.
  all: apply count_occ_not_In; intros HI; apply HB in HI; lia.
Qed.

Lemma zlt_swo : strict_weak_order Z.ltb.
Proof.
  split.
  - apply Z.ltb_irrefl.
  - intros x y z. rewrite !Z.ltb_lt. lia.
  - intros x y z. rewrite !Z.ltb_ge. lia.
Qed.
Lemma zgt_swo : strict_weak_order Z.gtb.
Proof.
  split; intros *; rewrite !Z.gtb_ltb.
  - apply Z.ltb_irrefl.
  - rewrite !Z.ltb_lt. lia.
  - rewrite !Z.ltb_ge. lia.
Qed.

(** The values for which no arithmetic operation overflows. *)
Definition countable (t : int_type) (greater : bool) (xs : list Z) : Prop :=
  (forall x, In x xs -> type_min t <= x <= type_max t) /\
  (32 <= bits t -> forall x y, In x xs -> In y xs -> y - x < Z.min (type_max t) (type_max ptrdiff)) /\
  (32 <= bits t -> signed t = true -> forall x, In x xs -> x <> if greater then type_min t else type_max t).

Lemma bounds_list : forall A T (comp : T -> T -> bool) (proj : A -> T) pre xs post mn mx,
  bounds comp proj (length pre) (length pre + length xs) mn mx (pre ++ map Val xs ++ post) ->
  exists a b, In a xs /\ In b xs /\ nth_error (pre ++ map Val xs ++ post) mn = Some (Val a) /\ nth_error (pre ++ map Val xs ++ post) mx = Some (Val b) /\
    forall x, In x xs -> by_proj comp proj x a = false /\ by_proj comp proj b x = false.
Proof.
  intros A T comp proj pre xs post mn mx (B1 & B2 & a & b & Ha & Hb & HB). exists a, b.
  assert (forall k x, (length pre <= k < length pre + length xs)%nat -> nth_error (pre ++ map Val xs ++ post) k = Some (Val x) -> In x xs) as HI.
  { intros k x Hk Hx. replace k with (length pre + (k - length pre))%nat in Hx by lia. rewrite nth_pre_map_post in Hx by lia.
    destruct (nth_error xs (k - length pre)) eqn:E; [|discriminate]. injection Hx as <-. eapply nth_error_In; eauto. }
  cj; eauto. intros x Hx. apply In_nth_error in Hx as [k Hk]. assert (k < length xs)%nat by (apply nth_error_Some; congruence).
  apply (HB (length pre + k)%nat); [lia|]. rewrite nth_pre_map_post by lia. now rewrite Hk.
Qed.

Theorem counting_sorter_sorts : forall t greater (pre : mem Z) (xs : list Z) (post : mem Z), real_type t -> countable t greater xs ->
  exists ys, counting_sorter t greater (length pre) (length pre + length xs)%nat (pre ++ map Val xs ++ post) = Ok tt (pre ++ map Val ys ++ post) /\
    is_sorting_of (if greater then Z.gtb else Z.ltb) xs ys.
Proof.
  intros t greater pre xs post HT (HR & HD & HE).
  assert (forall x, In x xs -> fits t x = true) as HF. { intros x Hx. unfold fits. rewrite andb_true_iff, !Z.leb_le. auto. }
  match goal with |- exists ys, ?c ?m = _ /\ _ => assert (wp c (fun _ m' => exists ys, m' = pre ++ map Val ys ++ post /\ is_sorting_of (if greater then Z.gtb else Z.ltb) xs ys) m) as H end.
  2:{ apply wp_ok in H as ([] & m & E & ys & -> & HS). eauto. }
  assert (forall mn mx, In mn xs -> In mx xs -> (forall x, In x xs -> mn <= x <= mx) -> let n := Z.to_nat (mx - mn + 1) in
    make_counts t mn mx = ret (repeat 0%nat n) /\ length (tally mn n xs) = n /\
    (forall Q : list nat -> mem Z -> Prop, Q (tally mn n xs) (pre ++ map Val xs ++ post) -> wp (count_values t (length pre) (length pre + length xs) mn (repeat 0%nat n)) Q (pre ++ map Val xs ++ post)) /\
    Permutation xs (spread 1 (tally mn n xs) mn)) as HM.
  { intros mn mx Hn Hx HB n. cj.
    - apply make_counts_ok; auto. apply HB. auto.
    - unfold tally. now rewrite map_length, seq_length.
    - intros Q HQ. apply count_values_wp; auto.
    - now apply spread_permutation. }
  unfold counting_sorter. destruct greater.
  - apply wp_bind. eapply wp_mono; [apply (minmax_and_sorted_wp Z.gtb (fun x => x)); [apply zgt_swo|lia|apply full_init]|].
    intros [[imn imx] srt] m' [-> HB]. destruct srt.
    { apply wp_ret. exists xs. split; auto. split; auto. now apply sorted_range_list in HB. }
    apply bounds_list in HB as (mx & mn & Ix & In_ & Ha & Hb & HB).
    assert (forall x, In x xs -> mn <= x <= mx) as HB'. { intros x Hx. specialize (HB x Hx). unfold by_proj in HB. rewrite !Z.gtb_ltb, !Z.ltb_ge in HB. lia. }
    destruct (HM mn mx In_ Ix HB') as (M1 & M2 & M3 & M4). set (n := Z.to_nat (mx - mn + 1)) in *.
    apply wp_bind. eapply wp_get; [exact Hb|]. apply wp_bind. eapply wp_get; [exact Ha|]. rewrite M1. apply wp_bind, wp_ret. apply wp_bind, M3.
    assert (spread (-1) (rev (tally mn n xs)) mx = rev (spread 1 (tally mn n xs) mn)) as ES.
    { rewrite <- spread_rev. f_equal. rewrite M2. unfold n. pose proof (HB' mn In_). lia. }
    apply fill_counts_wp; auto.
    + rewrite ES, rev_length. now apply Permutation_length.
    + rewrite rev_length, M2. intros i Hi. pose proof (HB' mn In_). pose proof (HR mn In_). pose proof (HR mx Ix). unfold fits. rewrite andb_true_iff, !Z.leb_le. unfold n in *. lia.
    + rewrite rev_length, M2. intros Hbit Hs. pose proof (HE Hbit Hs mn In_). pose proof (HB' mn In_). pose proof (HR mn In_). pose proof (HR mx Ix). unfold fits. rewrite andb_true_iff, !Z.leb_le. unfold n in *. lia.
    + exists (rev (spread 1 (tally mn n xs) mn)). rewrite ES. split; auto. split; [|apply spread_rev_sorted]. eapply Permutation_trans; [exact M4|apply Permutation_rev].
  - apply wp_bind. eapply wp_mono; [apply (minmax_and_sorted_wp Z.ltb (fun x => x)); [apply zlt_swo|lia|apply full_init]|].
    intros [[imn imx] srt] m' [-> HB]. destruct srt.
    { apply wp_ret. exists xs. split; auto. split; auto. now apply sorted_range_list in HB. }
    apply bounds_list in HB as (mn & mx & In_ & Ix & Ha & Hb & HB).
    assert (forall x, In x xs -> mn <= x <= mx) as HB'. { intros x Hx. specialize (HB x Hx). unfold by_proj in HB. rewrite !Z.ltb_ge in HB. lia. }
    destruct (HM mn mx In_ Ix HB') as (M1 & M2 & M3 & M4). set (n := Z.to_nat (mx - mn + 1)) in *.
    apply wp_bind. eapply wp_get; [exact Ha|]. apply wp_bind. eapply wp_get; [exact Hb|]. rewrite M1. apply wp_bind, wp_ret. apply wp_bind, M3.
    apply fill_counts_wp; auto.
    + now apply Permutation_length.
    + rewrite M2. intros i Hi. pose proof (HB' mn In_). pose proof (HR mn In_). pose proof (HR mx Ix). unfold fits. rewrite andb_true_iff, !Z.leb_le. unfold n in *. lia.
    + rewrite M2. intros Hbit Hs. pose proof (HE Hbit Hs mx Ix). pose proof (HB' mn In_). pose proof (HR mn In_). pose proof (HR mx Ix). unfold fits. rewrite andb_true_iff, !Z.leb_le. unfold n in *. lia.
    + exists (spread 1 (tally mn n xs) mn). split; auto. split; [auto|apply spread_sorted].
Qed.
