(** Proofs about the probes: osc. *)
From Coq Require Import List Arith Lia Permutation Bool ZArith Zify ZifyNat.
From Verif Require Import Spec.Order Spec.Probes Lang.Mem Spec.Sorts Proofs.Wp Proofs.OrderLib Proofs.Search Model.Search
  Model.Heap Model.Rotate Model.Indirect Proofs.Indirect Model.Probes Proofs.ProbesA Proofs.ProbesC Proofs.ProbesE.
Import ListNotations.
Ltac Zify.zify_post_hook ::= Z.to_euclidean_division_equations.

(** * Counting *)
Section Counting.
Definition cnt {X} (P : X -> bool) (l : list X) : nat := length (filter P l).

Lemma list_sum_cons : forall a l, list_sum (a :: l) = a + list_sum l.
Proof. reflexivity. Qed.
Lemma list_sum_app : forall l r, list_sum (l ++ r) = list_sum l + list_sum r.
Proof. induction l; intros; simpl; auto. rewrite IHl. lia. Qed.
Lemma cnt_app : forall X (P : X -> bool) l r, cnt P (l ++ r) = cnt P l + cnt P r.
Proof. intros. unfold cnt. now rewrite filter_app, app_length. Qed.
Lemma cnt_one : forall X (P : X -> bool) x, cnt P [x] = if P x then 1 else 0.
Proof. intros. unfold cnt. simpl. destruct (P x); auto. Qed.
Lemma cnt_map : forall X Y (g : Y -> X) (P : X -> bool) l, cnt P (map g l) = cnt (fun y => P (g y)) l.
Proof. intros. unfold cnt. induction l; simpl; auto. destruct (P (g a)); simpl; auto. Qed.
Lemma cnt_ext : forall X (P P' : X -> bool) l, (forall x, In x l -> P x = P' x) -> cnt P l = cnt P' l.
Proof.
  intros X P P' l H. unfold cnt. induction l as [|a l IH]; simpl; auto. rewrite <- (H a) by (left; auto).
  destruct (P a); simpl; rewrite IH; auto; intros; apply H; right; auto.
Qed.
Lemma cnt_le : forall X (P P' : X -> bool) l, (forall x, In x l -> P x = true -> P' x = true) -> cnt P l <= cnt P' l.
Proof.
  intros X P P' l H. unfold cnt. induction l as [|a l IH]; simpl; auto.
  specialize (IH ltac:(intros; apply H; auto; right; auto)). specialize (H a (or_introl eq_refl)).
  destruct (P a); [rewrite H by auto; simpl; lia|]. destruct (P' a); simpl; lia.
Qed.
Lemma cnt_or : forall X (P P' : X -> bool) l, cnt (fun x => P x || P' x) l <= cnt P l + cnt P' l.
Proof. intros. unfold cnt. induction l as [|a l IH]; simpl; auto. destruct (P a), (P' a); simpl; lia. Qed.
Lemma cnt_length : forall X (P : X -> bool) l, cnt P l <= length l.
Proof. intros. apply filter_length_le. Qed.

Lemma cnt_prod : forall X Y (g : X -> Y -> bool) l1 l2,
  length (filter (fun '(i, k) => g i k) (list_prod l1 l2)) = list_sum (map (fun i => cnt (g i) l2) l1).
Proof.
  induction l1 as [|a l1 IH]; intros l2; simpl; auto. rewrite filter_app, app_length, IH. f_equal.
  change (cnt (fun '(i, k) => g i k) (map (fun y => (a, y)) l2) = cnt (g a) l2). now rewrite cnt_map.
Qed.
Lemma sum_cnt_swap : forall X Y (g : X -> Y -> bool) l1 l2,
  list_sum (map (fun i => cnt (g i) l2) l1) = list_sum (map (fun k => cnt (fun i => g i k) l1) l2).
Proof.
  induction l1 as [|a l1 IH]; intros l2; simpl.
  - induction l2; simpl; auto.
  - change (cnt (g a) l2 + list_sum (map (fun i => cnt (g i) l2) l1) = list_sum (map (fun k => cnt (fun i => g i k) (a :: l1)) l2)).
    rewrite IH. clear IH. induction l2 as [|b l2 IH]; auto. cbn [map]. rewrite !list_sum_cons, <- IH. unfold cnt. simpl.
    destruct (g a b); simpl; lia.
Qed.
Lemma cnt_positions : forall X (P : X -> bool) xs,
  cnt (fun i => match nth_error xs i with Some v => P v | None => false end) (seq 0 (length xs)) = cnt P xs.
Proof.
  intros X P. induction xs as [|a xs IH]; simpl; auto. rewrite <- seq_shift. unfold cnt in *. simpl.
  change (length (filter ?f (map S ?l))) with (cnt f (map S l)).
  destruct (P a); simpl; rewrite <- IH; [f_equal|]; fold (cnt (fun i => match nth_error xs i with Some v => P v | None => false end) (seq 0 (length xs)));
  fold (cnt (fun i => match nth_error (a :: xs) i with Some v => P v | None => false end) (map S (seq 0 (length xs)))); now rewrite cnt_map.
Qed.
Lemma list_sum_ext : forall X (f g : X -> nat) l, (forall x, In x l -> f x = g x) -> list_sum (map f l) = list_sum (map g l).
Proof. induction l as [|a l IH]; intros H; simpl; auto. rewrite (H a), IH; auto; [intros; apply H; right; auto|left; auto]. Qed.
Lemma list_sum_le : forall X (f g : X -> nat) l, (forall x, In x l -> f x <= g x) -> list_sum (map f l) <= list_sum (map g l).
Proof.
  induction l as [|a l IH]; intros H; auto. cbn [map]. rewrite !list_sum_cons. specialize (IH ltac:(intros; apply H; right; auto)).
  specialize (H a (or_introl eq_refl)). lia.
Qed.
Lemma list_sum_perm : forall l r, Permutation l r -> list_sum l = list_sum r.
Proof. induction 1; rewrite ?list_sum_cons; lia. Qed.
Lemma list_sum_positions : forall X (f : X -> nat) xs,
  list_sum (map (fun i => match nth_error xs i with Some v => f v | None => 0 end) (seq 0 (length xs))) = list_sum (map f xs).
Proof.
  intros X f. induction xs as [|a xs IH]; simpl; auto. rewrite <- seq_shift, map_map. simpl. now rewrite IH.
Qed.
End Counting.

Section Osc.
Context {A : Type} (lt : A -> A -> bool).
Hypothesis HW : strict_weak_order lt.

Definition strad (x y v : A) : bool := (lt x v && lt v y) || (lt y v && lt v x).

Lemma straddles_strad : forall xs i k x y v, nth_error xs k = Some x -> nth_error xs (S k) = Some y -> nth_error xs i = Some v ->
  straddles lt xs i k = strad x y v.
Proof.
  intros xs i k x y v Hx Hy Hv. unfold straddles, strad.
  now rewrite (less_pos_some lt xs i k v x Hv Hx), (less_pos_some lt xs (S k) i y v Hy Hv),
    (less_pos_some lt xs i (S k) v y Hv Hy), (less_pos_some lt xs k i x v Hx Hv).
Qed.

(** The sum, by element and by adjacent pair. *)
Lemma oscillation_rows : forall xs, oscillation lt xs = list_sum (map (fun i => cnt (straddles lt xs i) (seq 0 (length xs - 1))) (seq 0 (length xs))).
Proof. intros. unfold oscillation. apply (cnt_prod _ _ (straddles lt xs)). Qed.
Lemma oscillation_columns : forall xs, oscillation lt xs =
  list_sum (map (fun k => cnt (fun i => straddles lt xs i k) (seq 0 (length xs))) (seq 0 (length xs - 1))).
Proof. intros. rewrite oscillation_rows. apply sum_cnt_swap. Qed.
Lemma column : forall xs k x y, nth_error xs k = Some x -> nth_error xs (S k) = Some y ->
  cnt (fun i => straddles lt xs i k) (seq 0 (length xs)) = cnt (strad x y) xs.
Proof.
  intros xs k x y Hx Hy. rewrite <- (cnt_positions _ (strad x y)). apply cnt_ext. intros i Hi. apply in_seq in Hi.
  destruct (nth_some _ xs i) as (v & Hv); [lia|]. rewrite Hv. eapply straddles_strad; eauto.
Qed.

Lemma strad_between : forall x y xs, lt x y = true -> cnt (strad x y) xs + upto lt x xs = below lt y xs.
Proof.
  intros x y xs Hxy. unfold cnt, upto, below. induction xs as [|v xs IH]; simpl; auto.
  unfold strad at 1. destruct (lt x v) eqn:E1; simpl negb; cbv iota.
  - rewrite (lt_asym lt HW x v E1), andb_false_r, orb_false_r. simpl andb. destruct (lt v y); simpl; lia.
  - assert (lt v y = true) as -> by (exact (le_lt_trans lt HW v x y E1 Hxy)).
    assert (lt y v = false) as -> by (apply (lt_asym lt HW); exact (le_lt_trans lt HW v x y E1 Hxy)). simpl. lia.
Qed.
Lemma strad_sym : forall x y v, strad x y v = strad y x v.
Proof. intros. unfold strad. apply orb_comm. Qed.
Lemma strad_equiv : forall x y xs, lt x y = false -> lt y x = false -> cnt (strad x y) xs = 0.
Proof.
  intros x y xs H1 H2. unfold cnt. induction xs as [|v xs IH]; simpl; auto.
  assert (strad x y v = false) as ->; auto. unfold strad.
  destruct (lt x v) eqn:E1; simpl.
  - destruct (lt v y) eqn:E2; simpl; [now rewrite (lt_trans lt HW x v y E1 E2) in H1|].
    rewrite (lt_asym lt HW x v E1), andb_false_r. auto.
  - destruct (lt y v) eqn:E2; simpl; auto. destruct (lt v x) eqn:E3; auto. now rewrite (lt_trans lt HW y v x E2 E3) in H2.
Qed.

(** ** The bound *)
Lemma row_bound : forall xs i v, nth_error xs i = Some v ->
  cnt (straddles lt xs i) (seq 0 (length xs - 1)) <=
  Nat.min (2 * below lt v xs) (Nat.min (2 * (length xs - upto lt v xs)) (length xs - 2)).
Proof.
  intros xs i v Hv. set (n := length xs).
  assert (forall (P : A -> bool), (forall x y, strad x y v = true -> P x = true \/ P y = true) ->
    cnt (straddles lt xs i) (seq 0 (n - 1)) <= 2 * cnt P xs) as K.
  { intros P HP. set (p := fun i => match nth_error xs i with Some v => P v | None => false end).
    assert (cnt p (seq 0 n) = cnt P xs) as E by apply cnt_positions.
    transitivity (cnt (fun k => p k || p (S k)) (seq 0 (n - 1))).
    - apply cnt_le. intros k Hk Hs. apply in_seq in Hk.
      destruct (nth_some _ xs k) as (x & Hx); [fold n; lia|]. destruct (nth_some _ xs (S k)) as (y & Hy); [fold n; lia|].
      rewrite (straddles_strad xs i k x y v Hx Hy Hv) in Hs. unfold p. rewrite Hx, Hy. apply orb_true_iff. auto.
    - etransitivity; [apply cnt_or|]. rewrite <- (cnt_map _ _ S p), seq_shift. rewrite <- E.
      assert (cnt p (seq 0 (n - 1)) <= cnt p (seq 0 n)) as H1.
      { destruct n; [simpl; lia|]. rewrite seq_S, cnt_app. simpl. rewrite Nat.sub_0_r. lia. }
      assert (cnt p (seq 1 (n - 1)) <= cnt p (seq 0 n)) as H2.
      { destruct n; [simpl; unfold cnt; simpl; lia|]. simpl. rewrite Nat.sub_0_r. unfold cnt. simpl. destruct (p 0); simpl; lia. }
      lia. }
  apply Nat.min_glb; [|apply Nat.min_glb].
  - apply (K (fun x => lt x v)). intros x y H. unfold strad in H. apply orb_true_iff in H as [H|H]; apply andb_true_iff in H; tauto.
  - assert (n - upto lt v xs = cnt (fun x => lt v x) xs) as ->.
    { unfold upto, cnt.
      assert (forall l, length (filter (fun y => negb (lt v y)) l) + length (filter (fun x => lt v x) l) = length l) as K'.
      { induction l as [|b l IH0]; simpl; auto. destruct (lt v b); simpl; lia. }
      specialize (K' xs). fold n in K'. lia. }
    apply K. intros x y H. unfold strad in H. apply orb_true_iff in H as [H|H]; apply andb_true_iff in H; tauto.
  - pose proof (nth_lt _ _ _ Hv) as Hi. fold n in Hi.
    destruct (Nat.le_gt_cases n 1) as [Hn|Hn].
    { replace (n - 1) with 0 by lia. simpl. unfold cnt; simpl. lia. }
    (* the pair that starts (or ends) with the element itself *)
    set (k := if i <? n - 1 then i else i - 1).
    assert (k < n - 1) as Hk by (unfold k; destruct (Nat.ltb_spec i (n - 1)); lia).
    assert (straddles lt xs i k = false) as Hf.
    { destruct (nth_some _ xs k) as (x & Hx); [fold n; lia|]. destruct (nth_some _ xs (S k)) as (y & Hy); [fold n; lia|].
      rewrite (straddles_strad xs i k x y v Hx Hy Hv). unfold strad, k in *.
      destruct (Nat.ltb_spec i (n - 1)).
      - rewrite Hv in Hx. inversion Hx; subst x. rewrite (lt_irrefl lt HW). simpl. now rewrite andb_false_r.
      - replace (S (i - 1)) with i in Hy by lia. rewrite Hv in Hy. inversion Hy; subst y. rewrite (lt_irrefl lt HW), andb_false_r. auto. }
    replace (seq 0 (n - 1)) with (seq 0 k ++ k :: seq (S k) (n - 2 - k)).
    + rewrite cnt_app. pose proof (cnt_length _ (straddles lt xs i) (seq 0 k)) as H1.
      pose proof (cnt_length _ (straddles lt xs i) (seq (S k) (n - 2 - k))) as H2. rewrite seq_length in H1, H2.
      unfold cnt at 2. simpl. rewrite Hf. fold (cnt (straddles lt xs i) (seq (S k) (n - 2 - k))). lia.
    + replace (n - 1) with (k + S (n - 2 - k)) by lia. rewrite seq_app. reflexivity.
Qed.

Lemma tri_sum : forall n, 2 * list_sum (map (fun r => Nat.min (2 * r) (Nat.min (2 * (n - 1 - r)) (n - 2))) (seq 0 n)) <= n * (n - 2).
Proof.
  assert (forall n, (2 * list_sum (map (fun r => Nat.min (2 * r) (Nat.min (2 * (n - 1 - r)) (n - 2))) (seq 0 n)) <= n * (n - 2)) /\
    (2 * list_sum (map (fun r => Nat.min (2 * r) (Nat.min (2 * (S n - 1 - r)) (S n - 2))) (seq 0 (S n))) <= S n * (S n - 2))) as K.
  2:{ intros n. apply (K n). }
  induction n as [|n [IH1 IH2]]; [simpl; lia|]. split; auto. clear IH2. destruct (Nat.eq_dec n 1) as [->|Hn1]; [vm_compute; lia|]. set (f := fun n r => Nat.min (2 * r) (Nat.min (2 * (n - 1 - r)) (n - 2))) in *.
  change (2 * list_sum (map (f n) (seq 0 n)) <= n * (n - 2)) in IH1.
  change (2 * list_sum (map (f (S (S n))) (seq 0 (S (S n)))) <= S (S n) * (S (S n) - 2)).
  rewrite seq_S. rewrite map_app, list_sum_app. cbn [seq map]. rewrite !list_sum_cons.
  rewrite <- seq_shift, map_map.
  assert (f (S (S n)) 0 = 0) as -> by (unfold f; lia).
  assert (f (S (S n)) (0 + S n) = 0) as -> by (unfold f; lia).
  assert (list_sum (map (fun x => f (S (S n)) (S x)) (seq 0 n)) <= list_sum (map (f n) (seq 0 n)) + 2 * n) as H.
  { transitivity (list_sum (map (fun x => f n x + 2) (seq 0 n))).
    - apply list_sum_le. intros r Hr. apply in_seq in Hr. unfold f. lia.
    - assert (forall l, list_sum (map (fun x => f n x + 2) l) = list_sum (map (f n) l) + 2 * length l) as K.
      { induction l as [|a l IHl]; [simpl; lia|]. cbn [map length]. rewrite !list_sum_cons, IHl. lia. }
      rewrite K, seq_length. lia. }
  change (list_sum []) with 0. set (S1 := list_sum (map (f n) (seq 0 n))) in *.
  set (S2 := list_sum (map (fun x => f (S (S n)) (S x)) (seq 0 n))) in *. clearbody S1 S2. clear f.
  destruct n as [|[|n]]; [lia|lia|].
  replace (S (S n) - 2) with n in IH1 by lia. replace (S (S (S (S n))) - 2) with (S (S n)) by lia. nia.
Qed.

Lemma oscillation_bound : forall xs, 2 * oscillation lt xs <= length xs * (length xs - 2).
Proof.
  intros xs. set (n := length xs). rewrite oscillation_rows.
  transitivity (2 * list_sum (map (fun v => Nat.min (2 * below lt v xs) (Nat.min (2 * (n - upto lt v xs)) (n - 2))) xs)).
  - apply Nat.mul_le_mono_l. rewrite <- (list_sum_positions _ _ xs). apply list_sum_le. intros i Hi. apply in_seq in Hi.
    destruct (nth_some _ xs i) as (v & Hv); [lia|]. rewrite Hv. now apply row_bound.
  - etransitivity; [|apply tri_sum]. apply Nat.mul_le_mono_l.
    pose proof (ssort_perm lt xs) as HP. pose proof (ssort_sorted lt HW xs) as HS. set (ys := ssort lt xs) in *.
    rewrite (list_sum_perm _ _ (Permutation_map _ HP)).
    pose proof (Permutation_length HP) as HL. fold n in HL. rewrite <- (list_sum_positions _ _ ys). rewrite <- HL.
    apply list_sum_le. intros r Hr. apply in_seq in Hr.
    destruct (nth_some _ ys r) as (v & Hv); [lia|]. rewrite Hv.
    rewrite (below_perm lt v xs ys HP), (upto_perm lt v xs ys HP).
    assert (below lt v ys <= r) as H1.
    { destruct (Nat.le_gt_cases (below lt v ys) r) as [|L]; auto. exfalso.
      apply (rank_below lt HW v ys r v HS Hv) in L. rewrite (lt_irrefl lt HW) in L. discriminate. }
    assert (r < upto lt v ys) as H2. { apply (rank_upto lt HW v ys r v HS Hv). apply (lt_irrefl lt HW). }
    lia.
Qed.

Lemma oscillation_sorted : forall xs, sorted lt xs -> oscillation lt xs = 0.
Proof.
  intros xs HS. rewrite oscillation_columns.
  assert (forall l, (forall k, In k l -> k < length xs - 1) ->
    list_sum (map (fun k => cnt (fun i => straddles lt xs i k) (seq 0 (length xs))) l) = 0) as K.
  { induction l as [|k l IH]; intros H; simpl; auto. rewrite IH by (intros; apply H; right; auto).
    specialize (H k (or_introl eq_refl)). rewrite Nat.add_0_r.
    destruct (nth_some _ xs k) as (x & Hx); [lia|]. destruct (nth_some _ xs (S k)) as (y & Hy); [lia|].
    rewrite (column xs k x y Hx Hy).
    assert (lt y x = false) as Hyx by (eapply HS; [|exact Hx|exact Hy]; lia).
    destruct (lt x y) eqn:E; [|now apply strad_equiv].
    pose proof (strad_between x y xs E) as HB.
    (* nothing lies strictly between neighbours *)
    assert (below lt y xs <= S k) as H1.
    { destruct (Nat.le_gt_cases (below lt y xs) (S k)) as [|L]; auto. exfalso.
      apply (rank_below lt HW y xs (S k) y HS Hy) in L. rewrite (lt_irrefl lt HW) in L. discriminate. }
    assert (k < upto lt x xs) as H2. { apply (rank_upto lt HW x xs k x HS Hx). apply (lt_irrefl lt HW). }
    lia. }
  apply K. intros k Hk. apply in_seq in Hk. lia.
Qed.
End Osc.

Section OscProbe.
Context {A T : Type} (comp : T -> T -> bool) (proj : A -> T).
Hypothesis HC : strict_weak_order comp.
Notation lt := (by_proj comp proj).
Let HW : strict_weak_order lt := swo_by_proj _ _ comp proj HC.
Variable inner : (T -> T -> bool) -> (nat * A -> T) -> range_prog (nat * A).
Hypothesis Hinner : forall c p, strict_weak_order c -> sorts (by_proj c p) (inner c p).

Lemma osc_test : forall x y v : A,
  comp (std_min comp (proj x) (proj y)) (proj v) && comp (proj v) (std_max comp (proj x) (proj y)) = strad lt x y v.
Proof.
  intros x y v. unfold std_min, std_max, strad.
  change (comp (proj y) (proj x)) with (lt y x). change (comp (proj x) (proj y)) with (lt x y).
  destruct (lt y x) eqn:E1.
  - rewrite (lt_asym lt HW y x E1).
    change (comp (proj y) (proj v)) with (lt y v). change (comp (proj v) (proj x)) with (lt v x).
    destruct (lt x v) eqn:E2, (lt v y) eqn:E3; simpl; auto.
    pose proof (lt_trans lt HW x v y E2 E3) as E4. rewrite (lt_asym lt HW y x E1) in E4. discriminate.
  - change (comp (proj x) (proj v)) with (lt x v). destruct (lt x y) eqn:E2.
    + change (comp (proj v) (proj y)) with (lt v y). destruct (lt y v) eqn:E3, (lt v x) eqn:E4; simpl; rewrite ?orb_false_r; auto.
      exfalso. rewrite (lt_trans lt HW y v x E3 E4) in E1. discriminate.
    + change (comp (proj v) (proj x)) with (lt v x).
      destruct (lt x v) eqn:E3; simpl.
      * rewrite (lt_asym lt HW x v E3), andb_false_r, orb_false_r.
        destruct (lt v y) eqn:E4; auto. now rewrite (lt_trans lt HW x v y E3 E4) in E2.
      * destruct (lt y v) eqn:E4; simpl; auto. destruct (lt v x) eqn:E5; auto.
        now rewrite (lt_trans lt HW y v x E4 E5) in E1.
Qed.

Lemma inplace_osc_wp : forall pre xs post (Q : nat -> mem A -> Prop),
  Q (oscillation lt xs) (pre ++ map Val xs ++ post) ->
  wp (inplace_osc comp proj (length pre) (length pre + length xs) (length xs)) Q (pre ++ map Val xs ++ post).
Proof.
  intros pre xs post Q HQ. unfold inplace_osc. set (n := length xs) in *.
  destruct (Nat.ltb_spec n 2).
  { apply wp_ret. replace 0 with (oscillation lt xs); auto. pose proof (oscillation_bound lt HW xs). fold n in H0.
    assert (n = 0 \/ n = 1) as [E|E] by lia; rewrite E in H0; simpl in H0; lia. }
  rewrite oscillation_rows in HQ. fold n in HQ.
  set (row := fun i => cnt (straddles lt xs i) (seq 0 (n - 1))) in *.
  apply wp_loop' with (mu := fun '(it, count) => length pre + n - it)
    (I := fun '(it, count) m => exists c, it = length pre + c /\ c <= n /\ count = list_sum (map row (seq 0 c)) /\
       m = pre ++ map Val xs ++ post).
  - exists 0. cj; auto; lia.
  - lia.
  - intros [it count] m (c & -> & Hc & -> & ->).
    destruct (Nat.eqb_spec (length pre + c) (length pre + n)) as [E|E].
    { apply wp_ret. replace c with n by lia. exact HQ. }
    destruct (nth_some _ xs c) as (v & Hv); [fold n; lia|].
    apply wp_bind. eapply wp_get_list; eauto. apply wp_bind.
    set (base := list_sum (map row (seq 0 c))).
    apply wp_loop' with (mu := fun '(current, next, count) => length pre + n - next)
      (I := fun '(current, next, count) m => exists d, current = length pre + d /\ next = length pre + S d /\ d < n /\
         count = base + cnt (straddles lt xs c) (seq 0 d) /\ m = pre ++ map Val xs ++ post).
    + exists 0. cj; auto; try lia.
    + lia.
    + intros [[current next] count] m (d & -> & -> & Hd & -> & ->).
      destruct (Nat.eqb_spec (length pre + S d) (length pre + n)) as [E'|E'].
      * apply wp_ret. apply wp_ret. split; [|lia]. exists (S c). cj; auto; try lia.
        rewrite seq_S, map_app, list_sum_app. simpl. unfold row at 2. replace (n - 1) with d by lia. fold base. lia.
      * destruct (nth_some _ xs d) as (x & Hx); [fold n; lia|]. destruct (nth_some _ xs (S d)) as (y & Hy); [fold n; lia|].
        apply wp_bind. eapply wp_get_list; eauto. apply wp_bind. eapply wp_get_list; eauto. apply wp_ret. split; [|lia].
        exists (S d). cj; auto; try lia. rewrite osc_test. rewrite seq_S, cnt_app, cnt_one. rewrite Nat.add_0_l.
        rewrite (straddles_strad lt xs c d x y v Hx Hy Hv). destruct (strad lt x y v); simpl; lia.
Qed.

(** The weight of the vector of differences. *)
Fixpoint weight (v : list Z) : Z := match v with [] => 0 | x :: v => x * (1 + Z.of_nat (length v)) + weight v end.
Lemma accumulate_spec : forall v a, fold_left Z.add v a = (a + fold_left Z.add v 0)%Z.
Proof. induction v as [|x v IH]; intros a; simpl; [lia|]. rewrite IH, (IH x). lia. Qed.
Lemma partial_sum_weight : forall v a, accumulate (partial_sum a v) = (a * Z.of_nat (length v) + weight v)%Z.
Proof.
  induction v as [|x v IH]; intros a; cbn [partial_sum weight length]; [unfold accumulate; simpl; lia|].
  unfold accumulate in *. cbn [fold_left]. rewrite accumulate_spec, IH. lia.
Qed.
Lemma weight_upd : forall v i c c', nth_error v i = Some c ->
  weight (upd i c' v) = (weight v + (c' - c) * (Z.of_nat (length v) - Z.of_nat i))%Z.
Proof.
  induction v as [|x v IH]; intros [|i] c c' H; simpl in H; try discriminate.
  - inversion H; subst. cbn [upd weight length]. lia.
  - cbn [upd weight length]. rewrite upd_length, (IH i c c' H). lia.
Qed.

Lemma weight_zero : forall n, weight (repeat 0%Z n) = 0%Z.
Proof. induction n; simpl; auto. Qed.

Lemma allocating_osc_wp : forall pre xs post (Q : Z -> mem A -> Prop),
  Q (Z.of_nat (oscillation lt xs)) (pre ++ map Val xs ++ post) ->
  wp (allocating_osc comp proj inner (length pre) (length pre + length xs) (length xs)) Q (pre ++ map Val xs ++ post).
Proof.
  intros pre xs post Q HQ. unfold allocating_osc.
  destruct (Nat.ltb_spec (length xs) 2) as [Hn|Hn].
  { apply wp_ret. replace 0%Z with (Z.of_nat (oscillation lt xs)); auto. pose proof (oscillation_bound lt HW xs) as HB.
    assert (length xs = 0 \/ length xs = 1) as [E|E] by lia; rewrite E in HB; simpl in HB; lia. }
  apply wp_bind. apply sorted_its_wp; auto. intros its HPt HS HP. set (ys := map snd its) in *.
  destruct (nth_some _ xs 0) as (x0 & Hx0); [lia|].
  apply wp_bind. replace (get (length pre)) with (@get A (length pre + 0)) by (f_equal; lia). eapply wp_get_list; eauto.
  apply wp_bind. apply bounds_wp; auto. fold ys. apply wp_bind.
  rewrite oscillation_columns in HQ. set (n := length xs) in *.
  set (col := fun k => cnt (fun i => straddles lt xs i k) (seq 0 n)) in *.
  assert (forall x y, lt x y = true -> cnt (strad lt x y) xs = below lt y ys - upto lt x ys /\ upto lt x ys <= below lt y ys) as Hbet.
  { intros x y Hxy. pose proof (strad_between lt HW x y xs Hxy) as H.
    rewrite (below_perm lt y xs ys HP), (upto_perm lt x xs ys HP) in H. lia. }
  assert (forall y, In y xs -> below lt y ys < n) as Hlt.
  { intros y Hy. assert (In y ys) as Hin by (eapply Permutation_in; eauto).
    apply In_nth_error in Hin as (j & Hj). destruct (Nat.le_gt_cases (below lt y ys) j) as [|L].
    - apply nth_lt in Hj. rewrite <- (Permutation_length HP) in Hj. fold n in Hj. lia.
    - apply (rank_below lt HW y ys j y HS Hj) in L. rewrite (lt_irrefl lt HW) in L. discriminate. }
  apply wp_loop' with (mu := fun '(prev, current, pb, cross) => length pre + n - current)
    (I := fun '(prev, current, pb, cross) m => exists c x, prev = length pre + c /\ current = length pre + S c /\ c < n /\
       nth_error xs c = Some x /\ pb = (below lt x ys, upto lt x ys) /\ length cross = n /\
       weight cross = Z.of_nat (list_sum (map col (seq 0 c))) /\ m = pre ++ map Val xs ++ post).
  - exists 0, x0. cj; auto; try lia.
    + apply repeat_length.
    + rewrite weight_zero. reflexivity.
  - lia.
  - intros [[[prev current] pb] cross] m (c & x & -> & -> & Hc & Hx & -> & HL & Hw & ->).
    destruct (Nat.eqb_spec (length pre + S c) (length pre + n)) as [E|E].
    { apply wp_ret. apply wp_ret. rewrite partial_sum_weight, Hw. replace c with (n - 1) by lia. exact HQ. }
    destruct (nth_some _ xs (S c)) as (y & Hy); [fold n; lia|].
    apply wp_bind. eapply wp_get_list; eauto. apply wp_bind. eapply wp_get_list; eauto.
    change (comp (proj x) (proj y)) with (lt x y). change (comp (proj y) (proj x)) with (lt y x).
    assert (col c = cnt (strad lt x y) xs) as Hcol by (apply column; auto).
    assert (forall a b, a <= b -> b < n -> b - a = cnt (strad lt x y) xs -> forall X (k : list Z -> M A X) (R : X -> mem A -> Prop),
      (forall cross', length cross' = n -> weight cross' = Z.of_nat (list_sum (map col (seq 0 (S c)))) ->
        wp (k cross') R (pre ++ map Val xs ++ post)) ->
      wp (let* c := rd cross a in let* cross := wr cross a (c + 1)%Z in let* c := rd cross b in
          let* cross := wr cross b (c - 1)%Z in k cross) R
         (pre ++ map Val xs ++ post)) as Hup.
    { intros a b Hab Hb Hd X k R HR.
      destruct (nth_some _ cross a) as (c1 & Hc1); [lia|]. apply wp_bind. eapply wp_rd; eauto.
      apply wp_bind. apply wp_wr; [lia|].
      destruct (nth_some _ (upd a (c1 + 1)%Z cross) b) as (c2 & Hc2); [rewrite upd_length; lia|].
      apply wp_bind. eapply wp_rd; eauto. apply wp_bind. apply wp_wr; [rewrite upd_length; lia|].
      apply HR; [now rewrite !upd_length|].
      rewrite (weight_upd _ _ _ _ Hc2), (weight_upd _ _ _ _ Hc1), Hw, upd_length, HL.
      rewrite seq_S, map_app, list_sum_app. simpl. rewrite Hcol. lia. }
    assert (In x xs) as Inx by (eapply nth_error_In; eauto). assert (In y xs) as Iny by (eapply nth_error_In; eauto).
    pose proof (Hlt x Inx) as Hbx. pose proof (Hlt y Iny) as Hby.
    destruct (lt x y) eqn:E1; [|destruct (lt y x) eqn:E2].
    + destruct (Hbet x y E1) as (Hd & Hle). apply wp_bind. apply bounds_wp; auto. fold ys. cbn [fst snd].
      apply Hup; [lia|lia|lia|]. intros cross' HL' Hw'. apply wp_ret. split; [|lia]. exists (S c), y. cj; auto; lia.
    + destruct (Hbet y x E2) as (Hd & Hle). apply wp_bind. apply bounds_wp; auto. fold ys. cbn [fst snd].
      assert (cnt (strad lt x y) xs = cnt (strad lt y x) xs) as Hsy by (apply cnt_ext; intros; apply strad_sym).
      apply Hup; [lia|lia|lia|]. intros cross' HL' Hw'. apply wp_ret. split; [|lia]. exists (S c), y. cj; auto; lia.
    + apply wp_ret. split; [|lia]. exists (S c), y. cj; auto; try lia.
      * f_equal; [apply (below_equiv lt HW)|apply (upto_equiv lt HW)]; apply eqv_spec; auto.
      * rewrite Hw, seq_S, map_app, list_sum_app. simpl. rewrite Hcol, (strad_equiv lt HW x y xs E1 E2). lia.
Qed.

Lemma probe_osc_wp : forall alloc_ok pre xs post (Q : Z -> mem A -> Prop),
  Q (Z.of_nat (oscillation lt xs)) (pre ++ map Val xs ++ post) ->
  wp (probe_osc comp proj inner alloc_ok (length pre) (length pre + length xs)) Q (pre ++ map Val xs ++ post).
Proof.
  intros alloc_ok pre xs post Q HQ. unfold probe_osc. replace (length pre + length xs - length pre) with (length xs) by lia.
  destruct (_ && _).
  - apply wp_bind. apply inplace_osc_wp. now apply wp_ret.
  - now apply allocating_osc_wp.
Qed.
End OscProbe.
