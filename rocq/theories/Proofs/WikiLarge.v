(** wiki_sort on a collection whose size defeats hyperfloor. *)
From Coq Require Import List Arith ZArith Lia Bool.
From Verif Require Import Spec.Order Lang.Mem Spec.Sorts Proofs.Wp Proofs.SpinMerge Model.Counting Model.Bitops Proofs.Bitops Model.Grail Model.Wiki.
Import ListNotations.
Local Open Scope nat_scope.
Local Arguments nth_error : simpl never.
Local Arguments Nat.leb : simpl never.
Local Arguments Nat.ltb : simpl never.
Local Arguments Nat.eqb : simpl never.
Local Arguments Nat.mul : simpl never.
Local Arguments Nat.add : simpl never.
Local Arguments Nat.sub : simpl never.
Local Arguments Nat.div : simpl never.
Local Arguments Nat.modulo : simpl never.

Lemma loop_steps : forall A X R (body : X -> M A (X + R)) (f : nat -> X) m q j extra,
  (forall i, i < q -> body (f i) m = Ok (inl (f (S i))) m) -> j <= q -> loop (q - j + extra) body (f j) m = loop extra body (f q) m.
Proof.
  intros A X R body f m q j extra H Hj. remember (q - j) as k eqn:Ek. revert j Hj Ek. induction k as [|k IH]; intros j Hj Ek.
  - replace j with q by lia. reflexivity.
  - change (S k + extra) with (S (k + extra)). simpl. unfold bind. rewrite H by lia. apply IH; lia.
Qed.

Section Large.
Variables (q K : nat) (junk : nat -> nat * nat * nat * nat) (dt : int_type).
Let d := 4 * q + 1.
Let n := 4 * d.
Hypothesis HK : 20 <= K.
Hypothesis Hq : 1 <= q.
Hypothesis HH : hyperfloor dt (Z.of_nat n) = Some (Z.of_nat n).
Let m : mem nat := map Val (repeat 0 n) ++ repeat Moved K.
Notation comp_at := (Wiki.comp_at Nat.ltb (fun x : nat => x)).

Lemma get_in : forall i, i < n -> get i m = Ok 0 m.
Proof. intros i Hi. unfold get, m. rewrite nth_error_app1 by (rewrite map_length, repeat_length; auto). rewrite nth_error_map. rewrite nth_error_repeat by auto. reflexivity. Qed.
Lemma get_out : forall i, n <= i < n + K -> get i m = UB.
Proof.
  intros i Hi. unfold get, m. rewrite nth_error_app2 by (rewrite map_length, repeat_length; lia). rewrite map_length, repeat_length. rewrite nth_error_repeat by lia. reflexivity.
Qed.
Lemma comp_in : forall i j, i < n -> j < n -> comp_at i j m = Ok false m.
Proof. intros i j Hi Hj. unfold Wiki.comp_at, bind. rewrite get_in by auto. rewrite get_in by auto. reflexivity. Qed.
Lemma comp_out : forall i j, n <= i < n + K -> comp_at i j m = UB.
Proof. intros i j Hi. unfold Wiki.comp_at, bind. now rewrite get_out by auto. Qed.

Lemma next_at : forall i, next_range d 4 0 0 (4 * i, 0) = ((4 * i, 4 * S i), (4 * S i, 0)).
Proof. intros i. unfold next_range. replace (d <=? 0 + 0) with false by (symmetry; apply Nat.leb_gt; unfold d; lia). replace (4 * i + 4) with (4 * S i) by lia. reflexivity. Qed.

Lemma group_in : forall i, i < d -> do_swaps Nat.ltb (fun x => x) (4 * i) net4 (seq 0 8) m = Ok tt m.
Proof.
  intros i Hi. assert (4 * i + 3 < n) by (unfold n; lia).
  assert (forall x y ps, x < 4 -> y < 4 -> (y <? x) = false -> do_swaps Nat.ltb (fun x => x) (4 * i) ((x, y) :: ps) (seq 0 8) m = do_swaps Nat.ltb (fun x => x) (4 * i) ps (seq 0 8) m) as HE.
  { intros x y ps Hx Hy Hxy. cbn [do_swaps]. unfold do_swap, bind. rewrite comp_in by lia. rewrite !seq_nth by lia. change (0 + y <? 0 + x) with (y <? x). rewrite Hxy. reflexivity. }
  unfold net4. rewrite !HE by (try lia; reflexivity). reflexivity.
Qed.

Lemma sort_groups_in : sort_groups Nat.ltb (fun x => x) 0 n d 4 0 m = Ok tt m.
Proof.
  unfold sort_groups. replace (S n) with (d - 0 + (S n - d)) by (unfold n; lia). change (0, 0) with ((fun i => (4 * i, 0)) 0). rewrite loop_steps with (f := fun i => (4 * i, 0)); [| |lia].
  - replace (S n - d) with (S (n - d)) by (unfold n; lia). cbn [loop]. unfold bind at 1. cbn [fst]. replace (n <=? 4 * d) with true by (symmetry; apply Nat.leb_le; auto). reflexivity.
  - intros i Hi. cbn [fst]. replace (n <=? 4 * i) with false by (symmetry; apply Nat.leb_gt; unfold n; lia). rewrite next_at. unfold start, len, end_, start. cbn [fst snd]. replace (4 * S i - 4 * i) with 4 by lia.
    change (net 4) with net4. unfold bind. rewrite group_in by auto. reflexivity.
Qed.

Lemma four_in : forall i, i < q -> merge_four Nat.ltb (fun x => x) (4 * (4 * i), 4 * (4 * i + 1)) (4 * (4 * i + 1), 4 * (4 * i + 2)) (4 * (4 * i + 2), 4 * (4 * i + 3)) (4 * (4 * i + 3), 4 * (4 * i + 4)) n m = Ok tt m.
Proof.
  intros i Hi. assert (4 * (4 * i + 4) <= n) by (unfold n, d; lia). unfold merge_four, merge_to, start, end_, bind. cbn [fst snd]. unfold ret. repeat (rewrite comp_in by lia; cbv beta iota; cbn [negb]). reflexivity.
Qed.

Lemma merge_fours_out : merge_fours Nat.ltb (fun x => x) 0 n d 4 0 n m = UB.
Proof.
  unfold merge_fours. replace (S n) with (q - 0 + (S n - q)) by (unfold n, d; lia). change (0, 0) with ((fun i => (4 * (4 * i), 0)) 0). rewrite loop_steps with (f := fun i => (4 * (4 * i), 0)); [| |lia].
  - replace (S n - q) with (S (n - q)) by (unfold n, d; lia). cbn [loop]. unfold bind at 1. cbn [fst]. replace (n <=? 4 * (4 * q)) with false by (symmetry; apply Nat.leb_gt; unfold n, d; lia).
    rewrite !next_at. unfold merge_four, merge_to, start, end_, bind. cbn [fst snd]. rewrite comp_out; [reflexivity|]. unfold n, d. lia.
  - intros i Hi. cbn [fst]. replace (n <=? 4 * (4 * i)) with false by (symmetry; apply Nat.leb_gt; unfold n, d; lia). rewrite !next_at. unfold bind.
    replace (S (4 * i)) with (4 * i + 1) by lia. replace (S (4 * i + 1)) with (4 * i + 2) by lia. replace (S (4 * i + 2)) with (4 * i + 3) by lia. replace (S (4 * i + 3)) with (4 * i + 4) by lia.
    rewrite four_in by auto. replace (4 * i + 4) with (4 * S i) by lia. reflexivity.
Qed.

Lemma wiki_large : forall triv, wiki_sorter Nat.ltb (fun x => x) triv true junk dt (fun _ => K) 0 n (map Val (repeat 0 n)) = UB.
Proof.
  intros triv. unfold wiki_sorter. unfold make_buffer. unfold bind at 1. rewrite map_length, repeat_length. fold m. unfold bind at 1. unfold sort. rewrite Nat.sub_0_r.
  replace (n <? 15) with false by (symmetry; apply Nat.ltb_ge; unfold n, d; lia). rewrite HH, Nat2Z.id.
  assert (n / 4 = d) as -> by (unfold n; rewrite Nat.mul_comm, Nat.div_mul; lia). assert (n / d = 4) as -> by (unfold n; rewrite Nat.div_mul; unfold d; lia). assert (n mod d = 0) as -> by (unfold n; rewrite Nat.mod_mul; unfold d; lia).
  unfold bind at 1. rewrite sort_groups_in. unfold merge_levels. cbn [loop]. unfold bind at 1. unfold bind at 1.
  replace (4 <? K) with true by (symmetry; apply Nat.ltb_lt; lia). replace ((4 + 1) * 4 <=? K) with true by (symmetry; apply Nat.leb_le; lia). replace (4 * 4 <=? n) with true by (symmetry; apply Nat.leb_le; unfold n, d; lia). cbn [andb].
  unfold bind at 1. rewrite merge_fours_out. reflexivity.
Qed.
End Large.

(** The smallest such size. *)
Definition large (dt : int_type) : nat := 2 ^ Z.to_nat (bits dt / 2 + 3) + 4.

Lemma large_fits : forall dt j, signed dt = true -> (4 <= j)%Z -> bits dt = (2 ^ j)%Z -> fits dt (Z.of_nat (large dt)) = true.
Proof.
  intros dt j HS Hj HB. pose proof (half_width dt j ltac:(lia) HB) as HHW. apply fits_small. split; [lia|]. unfold large, digits. rewrite HS, Nat2Z.inj_add, Nat2Z.inj_pow.
  pose proof (Z.pow_le_mono_r 2 3 (j - 1) ltac:(lia) ltac:(lia)) as H8. change (2 ^ 3)%Z with 8%Z in H8.
  assert (bits dt / 2 = 2 ^ (j - 1))%Z as -> by (rewrite HB, HHW, Z.mul_comm, Z.div_mul; lia). rewrite Z2Nat.id by lia. change (Z.of_nat 2) with 2%Z. change (Z.of_nat 4) with 4%Z. rewrite HB, HHW.
  apply Z.lt_le_trans with (2 ^ (2 ^ (j - 1) + 3) * 2)%Z.
  - pose proof (Z.pow_le_mono_r 2 3 (2 ^ (j - 1) + 3) ltac:(lia) ltac:(lia)) as H9. change (2 ^ 3)%Z with 8%Z in H9. lia.
  - rewrite Z.mul_comm, <- Z.pow_succ_r by lia. apply Z.pow_le_mono_r; lia.
Qed.

Lemma wiki_sorter_large : forall dt j triv junk K, signed dt = true -> (4 <= j)%Z -> bits dt = (2 ^ j)%Z -> 20 <= K ->
  wiki_sorter Nat.ltb (fun x => x) triv true junk dt (fun _ => K) 0 (large dt) (map Val (repeat 0 (large dt))) = UB.
Proof.
  intros dt j triv junk K HS Hj HB HK. pose proof (half_width dt j ltac:(lia) HB) as HHW. pose proof (large_fits dt j HS Hj HB) as HF.
  pose proof (Z.pow_le_mono_r 2 3 (j - 1) ltac:(lia) ltac:(lia)) as H8. change (2 ^ 3)%Z with 8%Z in H8.
  assert (bits dt / 2 = 2 ^ (j - 1))%Z as EH by (rewrite HB, HHW, Z.mul_comm, Z.div_mul; lia).
  remember (Z.to_nat (bits dt / 2 + 3) - 4) as e eqn:Ee. assert (large dt = 4 * (4 * 2 ^ e + 1)) as EL.
  { unfold large. replace (Z.to_nat (bits dt / 2 + 3)) with (4 + e) by lia. rewrite Nat.pow_add_r. change (2 ^ 4) with 16. lia. }
  assert (hyperfloor dt (Z.of_nat (large dt)) = Some (Z.of_nat (large dt))) as HH.
  { apply (hyperfloor_far dt j ltac:(lia) HB _ (bits dt / 2 + 3) 2); auto; try lia. unfold large. rewrite Nat2Z.inj_add, Nat2Z.inj_pow, Z2Nat.id by lia. reflexivity. }
  rewrite EL in *. apply wiki_large; auto. pose proof (Nat.pow_nonzero 2 e ltac:(lia)). lia.
Qed.
