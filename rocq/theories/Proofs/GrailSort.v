(** grail_sort: the whole algorithm. *)
From Coq Require Import List Arith Lia Permutation Bool ZArith.
From Verif Require Import Spec.Order Spec.Sorts Spec.Verge Lang.Mem Proofs.Wp Proofs.OrderLib Model.Rotate Proofs.Rotate Proofs.Stable Model.Insertion Proofs.MergeSort Model.Grail Proofs.GrailMerge Proofs.GrailSmart Proofs.GrailBlocks Proofs.GrailCombine Proofs.GrailChunks Proofs.GrailBuild Proofs.GrailKeys.
Import ListNotations.
Local Arguments nth_error : simpl never.
Local Arguments upd : simpl never.
Local Arguments loop : simpl never.
Local Arguments Z.sub : simpl never.
Local Arguments Nat.mul : simpl never.
Local Arguments Nat.div : simpl never.
Local Arguments Nat.modulo : simpl never.
Local Arguments Nat.pow : simpl never.

Lemma pow2_pos : forall i, 0 < 2 ^ i.
Proof. intros i. apply Nat.neq_0_lt_0, Nat.pow_nonzero. lia. Qed.
Lemma pow2_S : forall i, 2 ^ S i = 2 * 2 ^ i.
Proof. intros i. apply Nat.pow_succ_r'. Qed.
Lemma pow2_lt : forall i j, 2 ^ i < 2 ^ j -> 2 * 2 ^ i <= 2 ^ j.
Proof. intros i j H. assert (i < j) by (apply (Nat.pow_lt_mono_r_iff 2); lia). rewrite <- pow2_S. apply Nat.pow_le_mono_r; lia. Qed.
Lemma pow2_split : forall i j, 2 ^ i <= 2 ^ j -> 2 ^ j = 2 ^ (j - i) * 2 ^ i.
Proof. intros i j H. assert (i <= j) by (apply (Nat.pow_le_mono_r_iff 2); lia). rewrite <- Nat.pow_add_r. f_equal. lia. Qed.

Section Sort.
Context {A T : Type} (comp : T -> T -> bool) (proj : A -> T) (triv : bool).
Notation lt := (by_proj comp proj).
Implicit Types (pre post : mem A).
Hypothesis HW : strict_weak_order lt.
Local Notation ssort := (ssort lt).
Local Notation sb := (sb comp proj).
Local Notation same := (same_order_in_classes lt).

Lemma block_length_wp : forall size m (Q : nat -> mem A -> Prop),
  (forall j, 2 <= j -> size <= 2 ^ j * 2 ^ j -> Q (2 ^ j) m) -> wp (block_length size) Q m.
Proof.
  intros size m Q HQ. unfold block_length.
  apply wp_loop' with (I := fun l m' => m' = m /\ exists j, 2 <= j /\ l = 2 ^ j) (mu := fun l => size - l).
  - split; auto. exists 2. auto.
  - lia.
  - intros l m' (-> & j & Hj & ->). pose proof (pow2_pos j). destruct (Nat.ltb_spec (2 ^ j * 2 ^ j) size); apply wp_ret; auto.
    split. { split; auto. exists (S j). rewrite pow2_S. lia. } nia.
Qed.

Lemma halve_keys_wp : forall j findkeys m (Q : nat -> mem A -> Prop), 4 <= findkeys -> 2 <= j ->
  (forall i, 2 <= i -> 2 ^ i <= findkeys -> Q (2 ^ i) m) -> wp (halve_keys (2 ^ j) findkeys) Q m.
Proof.
  intros j findkeys m Q HF Hj HQ. unfold halve_keys.
  apply wp_loop' with (I := fun l m' => m' = m /\ exists i, 2 <= i /\ l = 2 ^ i) (mu := fun l => l).
  - eauto.
  - lia.
  - intros l m' (-> & i & Hi & ->). pose proof (pow2_pos i). destruct (Nat.ltb_spec findkeys (2 ^ i)) as [H1|H1]; apply wp_ret; auto.
    destruct i as [|i]; [lia|]. rewrite pow2_S in *. rewrite (Nat.mul_comm 2 (2 ^ i)), Nat.div_mul by lia. pose proof (pow2_pos i). split; [|lia]. split; auto. exists i. split; auto.
    destruct (Nat.le_gt_cases 2 i); auto. assert (i <= 1) by lia. assert (2 ^ i <= 2 ^ 1) by (apply Nat.pow_le_mono_r; lia). change (2 ^ 1) with 2 in *. lia.
Qed.

Lemma key_number_wp : forall j s m (Q : nat -> mem A -> Prop), 2 <= j -> 0 < s ->
  (forall i, 1 <= i <= j -> Q (2 ^ i) m) -> wp (key_number (2 ^ j) s) Q m.
Proof.
  intros j s m Q Hj Hs HQ. unfold key_number.
  apply wp_loop' with (I := fun '(nk, s') m' => m' = m /\ exists i, nk = 2 ^ i /\ i <= j /\ (i = 0 -> s' = s)) (mu := fun '(nk, s') => 2 ^ j - nk).
  - split; auto. exists 0. cj; auto. lia.
  - lia.
  - intros [nk s'] m' (-> & i & -> & Hi & E). pose proof (pow2_pos i).
    destruct (Nat.ltb_spec (2 ^ i) (2 ^ j)) as [H1|H1]; [destruct (Nat.eqb_spec s' 0) as [H2|H2]|]; simpl.
    + apply wp_ret. apply HQ. destruct i; [|lia]. rewrite E in H2 by auto. lia.
    + apply wp_ret. pose proof (pow2_lt _ _ H1). split; [|lia]. split; auto. exists (S i). rewrite pow2_S. cj; try lia. apply (Nat.pow_lt_mono_r_iff 2) in H1; lia.
    + apply wp_ret. apply HQ. apply (Nat.pow_le_mono_r_iff 2) in H1; lia.
Qed.

(** The parameters of the passes. *)
Definition blocks_ok (total LL n lb : nat) (chb : bool) : Prop := exists na nK,
  0 < lb /\ LL = na * lb /\ 0 < na /\ total = nK + (if chb then lb else 0) /\ (2 * LL <= n -> 2 * na <= nK) /\ (LL < n mod (2 * LL) -> n mod (2 * LL) / lb + 1 <= nK).

Lemma irregular : forall n na lb, 0 < lb -> 0 < na -> n mod (2 * (na * lb)) / lb + 1 <= 2 * na.
Proof.
  intros n na lb H1 H2. assert (n mod (2 * (na * lb)) < 2 * (na * lb)) as H by (apply Nat.mod_upper_bound; nia).
  assert (n mod (2 * (na * lb)) / lb < 2 * na); [|lia]. apply Nat.div_lt_upper_bound; lia.
Qed.

Lemma choose_block_wp : forall (havebuf : bool) lblock nkeys findkeys cbuf i n m (Q : nat * bool -> mem A -> Prop), 0 < i ->
  (if havebuf then 0 < lblock /\ cbuf = lblock * 2 ^ i /\ n + lblock <= nkeys * lblock else exists j, nkeys = 2 ^ j /\ 2 <= j /\ lblock = 0 /\ cbuf = nkeys * 2 ^ i /\ 0 < findkeys) ->
  (forall lb chb, blocks_ok (lblock + nkeys) cbuf n lb chb -> Q (lb, chb) m) ->
  wp (choose_block havebuf lblock nkeys findkeys cbuf) Q m.
Proof.
  intros havebuf lblock nkeys findkeys cbuf i n m Q Hi H HQ. unfold choose_block. pose proof (pow2_pos i) as Pi. destruct havebuf.
  - destruct H as (H1 & -> & H2). apply wp_ret. apply HQ. exists (2 ^ i), nkeys. cj; auto; try lia.
    + intros H. nia.
    + intros H. assert (n mod (2 * (lblock * 2 ^ i)) <= n) by (apply Nat.mod_le; nia).
      assert (n mod (2 * (lblock * 2 ^ i)) / lblock <= n / lblock) by (apply Nat.div_le_mono; lia).
      assert (n / lblock < nkeys); [|lia]. apply Nat.div_lt_upper_bound; lia.
  - destruct H as (j & -> & Hj & -> & -> & HF). pose proof (pow2_pos j) as Pj. simpl plus in *.
    assert (exists h, 2 ^ j = 2 * h /\ 0 < h) as (h & Eh & Hh). { destruct j as [|j]; [lia|]. exists (2 ^ j). rewrite pow2_S. split; auto. apply pow2_pos. }
    destruct ((4 <? 2 ^ j) && (2 ^ j * 2 ^ i <=? 2 ^ j / 8 * 2 ^ j)) eqn:E.
    + apply andb_true_iff in E as [_ E]. apply Nat.leb_le in E. apply wp_ret. apply HQ.
      assert (2 ^ j / 2 = h) as -> by (rewrite Eh, (Nat.mul_comm 2 h); apply Nat.div_mul; lia).
      assert (2 * (2 * 2 ^ i) <= h) as HH. { assert (2 ^ i <= 2 ^ j / 8) by nia. pose proof (Nat.mul_div_le (2 ^ j) 8 ltac:(lia)). lia. }
      exists (2 * 2 ^ i), h. cj; auto; try lia; try (intros _; nia).
    + apply wp_bind. apply key_number_wp; auto.
      { assert (2 ^ 2 <= 2 ^ j) by (apply Nat.pow_le_mono_r; lia). change (2 ^ 2) with 4 in *. apply Nat.div_str_pos. nia. }
      intros k Hk. apply wp_ret. apply HQ. destruct k as [|k]; [lia|]. rewrite pow2_S. pose proof (pow2_pos k) as Pk.
      assert (2 ^ j = 2 ^ (j - S k) * (2 * 2 ^ k)) as Ej. { rewrite <- pow2_S, <- Nat.pow_add_r. f_equal. lia. } pose proof (pow2_pos (j - S k)) as Pd.
      replace (2 * (2 ^ j * 2 ^ i) / (2 * 2 ^ k)) with (2 * 2 ^ (j - S k) * 2 ^ i).
      2:{ rewrite Ej. symmetry. replace (2 * (2 ^ (j - S k) * (2 * 2 ^ k) * 2 ^ i)) with (2 * 2 ^ (j - S k) * 2 ^ i * (2 * 2 ^ k)) by lia. apply Nat.div_mul. lia. }
      exists (2 ^ k), (2 ^ j).
      assert (2 * 2 ^ k <= 2 ^ j) as HKJ by (rewrite Ej; nia).
      cj; auto; try nia.
Qed.

Lemma combine_all_wp : forall (havebuf : bool) lblock nkeys findkeys cbuf k rest cur X pre p1 p2 first ptr last extbuf (Q : unit -> mem A -> Prop),
  (if havebuf then 0 < lblock /\ cbuf = lblock /\ length rest + lblock <= nkeys * lblock else exists j, nkeys = 2 ^ j /\ 2 <= j /\ lblock = 0 /\ cbuf = nkeys /\ 0 < findkeys) ->
  distinct comp proj k -> length k = lblock + nkeys -> sb (2 * cbuf) rest cur -> Forall live X ->
  first = length pre -> ptr = first + length k -> last = ptr + length rest -> extbuf = last + length p1 ->
  (forall k' X', Permutation k k' -> Forall live X' -> length X' = length X -> Q tt (pre ++ map Val k' ++ map Val (ssort rest) ++ p1 ++ X' ++ p2)) ->
  wp (combine_all comp proj triv havebuf first ptr last lblock nkeys findkeys cbuf extbuf (Z.of_nat (length X))) Q (pre ++ map Val k ++ map Val cur ++ p1 ++ X ++ p2).
Proof.
  intros havebuf lblock nkeys findkeys cbuf k rest cur X pre p1 p2 first ptr last extbuf Q HP HD LK HSB HX -> -> -> -> HQ. unfold combine_all.
  replace (length pre + length k + length rest - (length pre + length k)) with (length rest) by lia.
  assert (0 < cbuf) as HC. { destruct havebuf. { lia. } destruct HP as (j & -> & _ & _ & -> & _). apply pow2_pos. }
  apply wp_loop' with
    (I := fun c m => exists i k' cur' X', m = pre ++ map Val k' ++ map Val cur' ++ p1 ++ X' ++ p2 /\ c = cbuf * 2 ^ i /\ Permutation k k' /\ sb (2 * c) rest cur' /\ Forall live X' /\ length X' = length X)
    (mu := fun c => length rest - c).
  - exists 0, k, cur, X. cj; auto. change (2 ^ 0) with 1. lia.
  - lia.
  - intros c m (i & k' & cur' & X' & -> & -> & HPK & HS & HX' & LX'). pose proof (pow2_pos i) as Pi.
    replace (cbuf * 2 ^ i * 2) with (cbuf * 2 ^ S i) by (rewrite pow2_S; lia). replace (2 * (cbuf * 2 ^ i)) with (cbuf * 2 ^ S i) in HS by (rewrite pow2_S; lia).
    pose proof (Permutation_length HPK) as LK'.
    destruct (Nat.ltb_spec (cbuf * 2 ^ S i) (length rest)) as [H|H].
    + apply wp_bind. eapply choose_block_wp with (i := S i) (n := length rest); [lia| |].
      { destruct havebuf. - destruct HP as (H1 & -> & H2). auto. - destruct HP as (j & -> & H1 & -> & -> & H2). exists j. auto. }
      intros lb chb (na & nK & B1 & B2 & B3 & B4 & B5 & B6). apply wp_bind.
      set (usexbuf := chb && (Z.of_nat lb <=? Z.of_nat (length X))%Z).
      set (mode := if usexbuf then Extra else if chb then Swaps else NoBuffer).
      assert (exists K buf, k' = K ++ buf /\ length K = nK /\ length buf = if chb then lb else 0) as (K & buf & -> & LKK & Lbuf).
      { exists (firstn nK k'), (skipn nK k'). rewrite firstn_skipn, firstn_length, skipn_length. cj; auto; lia. }
      set (xl := if usexbuf then lb else 0).
      assert (xl <= length X) as Hxl. { unfold xl, usexbuf. destruct chb; simpl; [|lia]. destruct (Z.leb_spec (Z.of_nat lb) (Z.of_nat (length X))); lia. }
      assert (exists X1 X2, X' = X1 ++ X2 /\ length X1 = xl) as (X1 & X2 & -> & LX1).
      { exists (firstn xl X'), (skipn xl X'). rewrite firstn_skipn, firstn_length. split; auto. lia. }
      apply Forall_app in HX' as [HX1 HX2].
      reshape (pre ++ map Val K ++ [] ++ map Val buf ++ map Val cur' ++ p1 ++ X1 ++ (X2 ++ p2)).
      eapply combine_blocks_wp with (lblock := lb) (na := na) (orig := rest); try reflexivity; auto.
      * unfold mode, usexbuf. destruct chb; simpl. { destruct (_ <=? _)%Z; auto. } destruct buf; auto. discriminate.
      * intros EM. split; auto. unfold xl. unfold mode in EM. destruct usexbuf; auto. destruct chb; discriminate.
      * eapply distinct_app_l. eapply distinct_perm; eauto.
      * rewrite LKK. auto.
      * rewrite LKK. auto.
      * rewrite LK', !app_length. simpl. lia.
      * intros K' buf' out X1' E1 E2 E3 E4 E5 E6. apply wp_ret. split; [|rewrite pow2_S in H |- *; nia].
        exists (S i), (K' ++ buf'), out, (X1' ++ X2). cj; auto.
        -- solve_app.
        -- eapply Permutation_trans; [exact HPK|]. now apply Permutation_app.
        -- apply Forall_app. split; auto. destruct mode eqn:EM. { rewrite E5; auto. discriminate. } { rewrite E5; auto. discriminate. } now apply E6.
        -- rewrite <- LX', !app_length. lia.
    + apply wp_ret. assert (0 < cbuf * 2 ^ S i) as H0 by (pose proof (pow2_pos (S i)); nia). rewrite (sb_short comp proj _ _ _ H0 HS H). now apply HQ.
Qed.

Lemma common_sort_wp : forall xs X pre p1 p2 first last extbuf (Q : unit -> mem A -> Prop), first = length pre -> last = first + length xs -> extbuf = last + length p1 -> Forall live X ->
  (Z.of_nat (length xs) < 2 ^ 31)%Z \/ (exists a b c d, In a xs /\ In b xs /\ In c xs /\ In d xs /\ lt a b = true /\ lt b c = true /\ lt c d = true) -> (length X = 1 -> length xs < 16) ->
  (forall X', Forall live X' -> length X' = length X -> Q tt (pre ++ map Val (ssort xs) ++ p1 ++ X' ++ p2)) ->
  wp (common_sort comp proj triv first last extbuf (Z.of_nat (length X))) Q (pre ++ map Val xs ++ p1 ++ X ++ p2).
Proof.
  intros xs X pre p1 p2 first last extbuf Q -> -> -> HX HZ HX1 HQ. unfold common_sort. replace (length pre + length xs - length pre) with (length xs) by lia.
  destruct (Nat.ltb_spec (length xs) 16) as [H16|H16].
  { apply insertion_sort_stab; auto. intros ys [_ Hy]. rewrite Hy by auto. now apply HQ. }
  apply wp_bind. apply block_length_wp. intros j Hj HJ. pose proof (pow2_pos j) as Pj. apply wp_bind.
  destruct xs as [|x0 xs]; [simpl in H16; lia|].
  apply find_keys_wp; auto. { apply Nat.add_pos_r; auto. } intros k rest HS HSM Hk HCV _.
  set (size := length (x0 :: xs)) in *.
  assert (length k + length rest = size) as Lkr. { rewrite <- app_length. symmetry. apply Permutation_length. eapply same_perm; eauto. }
  assert (ssort (k ++ rest) = ssort (x0 :: xs)) as ESS by (symmetry; now apply ssort_same_eq).
  destruct ((length k <? (size - 1) / 2 ^ j + 1 + 2 ^ j) && (length k <? 4)) eqn:E4.
  { replace (length pre + size) with (length pre + length (k ++ rest)) by (rewrite app_length; lia).
    apply lazy_stable_sort_wp; auto. 2:{ rewrite ESS. now apply HQ. } rewrite app_length, Lkr. destruct HZ as [HZ|(a & b & c & d & Ia & Ib & Ic & Id & E1 & E2 & E3)]; [exact HZ|].
    apply andb_true_iff in E4 as [E4 E4']. apply Nat.ltb_lt in E4, E4'. exfalso.
    assert (4 <= length k); [|lia]. apply (keys_four comp proj HW k (x0 :: xs) a b c d); auto. intros z Hz.
    eapply Permutation_in in Hz; [|eapply same_perm; eauto].
    apply in_app_iff in Hz as [Hz|Hz]; [|now apply HCV]. exists z. rewrite (swo_irrefl _ HW). auto. }
  apply wp_bind.
  (* what follows the choice *)
  match goal with |- wp _ ?KK _ => assert (forall (havebuf : bool) nkeys lblock k1 k2, k = k1 ++ k2 -> length k1 = lblock + nkeys ->
     (if havebuf then (exists i, lblock = 2 ^ i /\ 2 <= i) /\ length (k2 ++ rest) + lblock <= nkeys * lblock else exists j, nkeys = 2 ^ j /\ 2 <= j /\ lblock = 0) ->
     KK (havebuf, nkeys, lblock) (pre ++ map Val (k ++ rest) ++ p1 ++ X ++ p2)) as HK end.
  { intros havebuf nkeys lblock k1 k2 Ek Lk1 HP. cbv beta iota. rewrite Ek in HS. apply strict_app in HS as (HS1 & _ & _).
    assert (length k1 + length (k2 ++ rest) = size) as L1 by (rewrite <- Lkr, Ek, !app_length; lia).
    set (cbuf := if havebuf then lblock else nkeys).
    assert (exists kp buf, k1 = kp ++ buf /\ length buf = cbuf) as (kp & buf & Ek1 & Lbuf).
    { exists (firstn (length k1 - cbuf) k1), (skipn (length k1 - cbuf) k1). rewrite firstn_skipn, skipn_length. split; auto. unfold cbuf. destruct havebuf; lia. }
    assert (length k1 = length kp + cbuf) as L2 by (rewrite Ek1, app_length; lia).
    assert (exists i, cbuf = 2 ^ i /\ 2 <= i) as (i & Ei & Hi). { unfold cbuf. destruct havebuf; [now destruct HP|]. destruct HP as (i & ? & ? & _); eauto. }
    assert (2 <= cbuf) as HC2. { assert (2 ^ 2 <= 2 ^ i) by (apply Nat.pow_le_mono_r; lia). change (2 ^ 2) with 4 in *. lia. }
    apply wp_bind. rewrite Ek, Ek1. reshape ((pre ++ map Val kp) ++ map Val buf ++ map Val (k2 ++ rest) ++ p1 ++ X ++ p2).
    eapply build_blocks_wp with (K := cbuf) (jk := i); auto; rewrite ?app_length, ?map_length in *; try lia.
    { destruct havebuf; auto. }
    intros buf' out X' HPb HSB HX' LX'. apply wp_bind.
    reshape (pre ++ map Val (kp ++ buf') ++ map Val out ++ p1 ++ X' ++ p2). rewrite <- LX'.
    pose proof (Permutation_length HPb) as Lb'.
    assert (Permutation k1 (kp ++ buf')) as HP1 by (rewrite Ek1; now apply Permutation_app_head).
    eapply combine_all_wp with (rest := k2 ++ rest); auto; rewrite ?app_length in *; try lia.
    { destruct havebuf. - destruct HP as ((i' & -> & _) & H). pose proof (pow2_pos i'). auto. - destruct HP as (j' & H1 & H2 & H3). exists j'. cj; auto. lia. }
    { eapply distinct_perm; [exact HP1|]. now apply strict_distinct. }
    intros k' X2 HP2 HX2 LX2. apply wp_bind.
    assert (Permutation k1 k') as HP3 by (eapply Permutation_trans; eauto). pose proof (Permutation_length HP3) as L3.
    apply insertion_sort_stab; auto; [lia|]. intros ys [_ Hy]. rewrite Hy by auto.
    assert (k1 = ssort k') as <-. { apply (strict_unique lt k1); auto. { eapply Permutation_trans; [exact HP3|apply ssort_perm]. } now apply ssort_sorted. }
    eapply merge_without_buffer_wp; auto; rewrite ?app_length, ?ssort_length in *; try lia.
    { now apply strict_sorted. } { now apply ssort_sorted. } { rewrite app_length. lia. }
    assert (k1 = ssort k1) as Es. { apply stable_is_ssort; auto. now apply strict_sorted. apply same_refl. }
    rewrite Es at 1. rewrite merge_ssort by auto. rewrite (app_assoc k1 k2 rest), <- Ek, ESS. apply HQ; auto. lia. }
  destruct (Nat.ltb_spec (length k) ((size - 1) / 2 ^ j + 1 + 2 ^ j)) as [HF|HF].
  - simpl in E4. apply Nat.ltb_ge in E4. apply wp_bind. apply halve_keys_wp; auto. intros i Hi HI. apply wp_ret.
    apply (HK false (2 ^ i) 0 (firstn (2 ^ i) k) (skipn (2 ^ i) k)).
    + now rewrite firstn_skipn.
    + rewrite firstn_length. lia.
    + exists i. auto.
  - apply wp_ret. apply (HK true ((size - 1) / 2 ^ j + 1) (2 ^ j) k []).
    + now rewrite app_nil_r.
    + lia.
    + split; [eauto|]. simpl app. pose proof (Nat.div_mod (size - 1) (2 ^ j) ltac:(lia)). pose proof (Nat.mod_upper_bound (size - 1) (2 ^ j) ltac:(lia)). nia.
Qed.

Lemma grail_sorter_sorts : forall buffer_size,
  sorts_stably_when (fun xs => ((Z.of_nat (length xs) < 2 ^ 31)%Z \/ (exists a b c d, In a xs /\ In b xs /\ In c xs /\ In d xs /\ lt a b = true /\ lt b c = true /\ lt c d = true)) /\ (Z.of_nat (buffer_size (length xs)) < 2 ^ 31)%Z /\ (buffer_size (length xs) = 1 -> length xs < 16))
    lt (grail_sorter comp proj triv buffer_size).
Proof.
  intros buffer_size pre xs post (H1 & H2 & H3). exists (ssort xs). split; [|now apply ssort_stable].
  unfold grail_sorter. replace (length pre + length xs - length pre) with (length xs) by lia. set (n := buffer_size (length xs)) in *.
  match goal with |- ?c _ = _ => assert (wp c (fun _ m => m = pre ++ map Val (ssort xs) ++ post) (pre ++ map Val xs ++ post)) as HH end.
  2:{ unfold wp in HH. match type of HH with match ?c with _ => _ end => destruct c as [[] m| |]; try contradiction end. now subst. }
  apply wp_bind. unfold make_buffer, wp at 1. rewrite to_int_small by auto. apply wp_bind.
  replace (pre ++ map Val xs ++ post) with (pre ++ map Val xs ++ post ++ []) by now rewrite app_nil_r.
  replace ((pre ++ map Val xs ++ post ++ []) ++ repeat Moved n) with (pre ++ map Val xs ++ post ++ repeat Moved n ++ []) by solve_app.
  replace n with (length (repeat (@Moved A) n)) at 1 by apply repeat_length.
  apply common_sort_wp; auto.
  - rewrite !app_length, map_length. simpl. lia.
  - apply Forall_forall. intros c Hc. apply repeat_spec in Hc. subst c. discriminate.
  - rewrite repeat_length. auto.
  - rewrite repeat_length. intros X' HX' LX'. apply wp_bind. reshape ((pre ++ map Val (ssort xs) ++ post) ++ X' ++ []).
    apply destroy_n_seg; auto. { rewrite !app_length, !map_length, ssort_length. simpl. lia. }
    rewrite LX'. reshape ((pre ++ map Val (ssort xs) ++ post) ++ repeat Raw n). apply wp_dealloc; auto. rewrite !app_length, !map_length, ssort_length. simpl. lia.
Qed.
End Sort.
