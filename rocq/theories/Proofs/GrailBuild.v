(** grail_sort: the construction of the first sorted chunks. *)
From Coq Require Import List Arith Lia Permutation Bool ZArith.
From Verif Require Import Spec.Order Lang.Mem Proofs.Wp Proofs.OrderLib Model.Rotate Proofs.Rotate Proofs.RotateGcd Proofs.Moves Model.Search Proofs.Search Model.Insertion Proofs.MergeSort Model.Grail Proofs.GrailMerge Proofs.GrailSmart Proofs.GrailChunks.
Import ListNotations.
Local Arguments nth_error : simpl never.
Local Arguments upd : simpl never.
Local Arguments loop : simpl never.
Local Arguments gapok : simpl never.
Local Arguments Z.sub : simpl never.
Local Arguments Nat.mul : simpl never.
Local Arguments Nat.land : simpl never.
Local Arguments Nat.div : simpl never.
Local Arguments Nat.modulo : simpl never.

Lemma land_even : forall a b, Nat.land (2 * a) (2 * b + 1) = 2 * Nat.land a b.
Proof.
  intros a b. apply Nat.bits_inj. intros [|n]; rewrite Nat.land_spec.
  - now rewrite Nat.testbit_even_0, Nat.testbit_even_0.
  - rewrite Nat.testbit_even_succ, Nat.testbit_odd_succ, Nat.testbit_even_succ, Nat.land_spec by lia. auto.
Qed.
Lemma land_odd : forall a, Nat.land (2 * a + 1) (2 * a) = 2 * a.
Proof.
  intros a. apply Nat.bits_inj. intros [|n]; rewrite Nat.land_spec.
  - now rewrite Nat.testbit_even_0, andb_false_r.
  - rewrite Nat.testbit_odd_succ, Nat.testbit_even_succ by lia. apply andb_diag.
Qed.
Lemma land_pred : forall x, 0 < x -> exists y, Nat.land x (x - 1) = 2 * y /\ Nat.land x (x - 1) < x.
Proof.
  intros x. induction x as [x IH] using lt_wf_ind. intros Hx. destruct (Nat.Even_or_Odd x) as [[y ->]|[y ->]].
  - replace (2 * y - 1) with (2 * (y - 1) + 1) by lia. rewrite land_even. destruct (IH y) as (z & E1 & E2); [lia|lia|]. exists (Nat.land y (y - 1)). split; auto. lia.
  - replace (2 * y + 1 - 1) with (2 * y) by lia. rewrite land_odd. exists y. lia.
Qed.
Lemma land_pred_0 : forall x, 0 < x -> Nat.land x (x - 1) = 0 -> exists k, x = 2 ^ k.
Proof.
  intros x. induction x as [x IH] using lt_wf_ind. intros Hx. destruct (Nat.Even_or_Odd x) as [[y ->]|[y ->]].
  - replace (2 * y - 1) with (2 * (y - 1) + 1) by lia. rewrite land_even. intros E. destruct (IH y) as (k & ->); [lia|lia|lia|]. exists (S k). reflexivity.
  - replace (2 * y + 1 - 1) with (2 * y) by lia. rewrite land_odd. intros E. exists 0. simpl. lia.
Qed.

Section Build.
Context {A T : Type} (comp : T -> T -> bool) (proj : A -> T) (triv : bool).
Notation lt := (by_proj comp proj).
Implicit Types (pre post G : mem A).
Hypothesis HW : strict_weak_order lt.
Local Notation ssort := (ssort lt).
Local Notation sb := (sb comp proj).

Lemma power_of_2_wp : forall n (Q : nat -> mem A -> Prop) m,
  (forall r, r <= n -> (n = 0 -> r = 0) -> (0 < n -> exists k, r = 2 ^ k) -> (2 <= n -> 2 <= r) -> Q r m) -> wp (power_of_2 n) Q m.
Proof.
  intros n Q m HQ. unfold power_of_2.
  apply wp_loop' with (I := fun x m' => m' = m /\ x <= n /\ (0 < n -> 0 < x) /\ (2 <= n -> 2 <= x)) (mu := fun x => x).
  - cj; auto.
  - lia.
  - intros x m' (-> & H1 & H2 & H3). destruct (Nat.eqb_spec (Nat.land x (x - 1)) 0) as [E|E].
    + apply wp_ret. apply HQ; auto; [lia|]. intros Hn. apply land_pred_0; auto.
    + apply wp_ret. assert (0 < x) as Hx. { destruct x; [|lia]. rewrite Nat.land_0_l in E. congruence. }
      destruct (land_pred x Hx) as (y & E1 & E2). cj; auto; try lia.
Qed.

(** The first pass. *)
Lemma ssort_two : forall x y, ssort [x; y] = if lt y x then [y; x] else [x; y].
Proof. intros x y. destruct (lt y x) eqn:E; cbn; rewrite E; auto. Qed.

Lemma transfer_pair_wp : forall ext buf c1 c2 x y pre post i (Q : unit -> mem A -> Prop), gapok ext buf [c1; c2] -> i = length pre ->
  (forall c1' c2' , gapok ext buf [c1'; c2'] -> Q tt (pre ++ map Val (ssort [x; y]) ++ [c1'; c2'] ++ post)) ->
  wp (let* c := compare_at comp proj (i + 2) (i + 3) in
      let u := if (0 <? c)%Z then 1 else 0 in
      transfer ext i (i + 2 + u) ;; transfer ext (i + 1) (i + 3 - u)) Q (pre ++ [c1; c2] ++ map Val [x; y] ++ post).
Proof.
  intros ext buf c1 c2 x y pre post i Q HG -> HQ. rewrite ssort_two in HQ.
  apply wp_bind. reshape ((pre ++ [c1; c2]) ++ Val x :: [] ++ Val y :: post). eapply wp_compare_2; [rewrite app_length; simpl; lia|rewrite app_length; simpl; lia|].
  rewrite compare_pos' by auto. cbv zeta. destruct (lt y x).
  - apply wp_bind. reshape (pre ++ c1 :: [c2; Val x] ++ Val y :: post).
    eapply transfer_left_wp with (g := [c2]); [exact HG|lia|simpl; lia|]. intros c1' HG1.
    reshape ((pre ++ [Val y]) ++ c2 :: [] ++ Val x :: c1' :: post). eapply transfer_left_wp with (g := [c1']); [eapply gapok_perm; [exact HG1|apply perm_swap]|rewrite app_length; simpl; lia|rewrite app_length; simpl; lia|].
    intros c2' HG2. replace ((pre ++ [Val y]) ++ Val x :: [] ++ c2' :: c1' :: post) with (pre ++ map Val [y; x] ++ [c2'; c1'] ++ post) by solve_app. apply HQ. auto.
  - apply wp_bind. reshape (pre ++ c1 :: [c2] ++ Val x :: Val y :: post).
    eapply transfer_left_wp with (g := [c2]); [exact HG|lia|simpl; lia|]. intros c1' HG1.
    reshape ((pre ++ [Val x]) ++ c2 :: [c1'] ++ Val y :: post). eapply transfer_left_wp with (g := [c1']); [eapply gapok_perm; [exact HG1|apply perm_swap]|rewrite app_length; simpl; lia|rewrite app_length; simpl; lia|].
    intros c2' HG2. replace ((pre ++ [Val x]) ++ Val y :: [c1'] ++ c2' :: post) with (pre ++ map Val [x; y] ++ [c1'; c2'] ++ post) by solve_app. apply HQ. eapply gapok_perm; [exact HG2|apply perm_swap].
Qed.

Lemma build_pairs_wp : forall ext buf G xs pre post first size (Q : unit -> mem A -> Prop), gapok ext buf G -> length G = 2 -> first = length pre + 2 -> size = length xs ->
  (forall out G', sb 2 xs out -> gapok ext buf G' -> Q tt (pre ++ map Val out ++ G' ++ post)) ->
  wp (build_pairs comp proj ext first size) Q (pre ++ G ++ map Val xs ++ post).
Proof.
  intros ext buf G xs pre post first size Q HG LG -> -> HQ. unfold build_pairs. apply wp_bind.
  apply wp_loop' with
    (I := fun i m => exists done G' o, m = pre ++ map Val done ++ G' ++ map Val o ++ post /\ gapok ext buf G' /\ length G' = 2 /\ (forall out, sb 2 o out -> sb 2 xs (done ++ out)) /\
        i = length done + 1 /\ length done + length o = length xs /\ Nat.Even (length done))
    (mu := fun i => length xs + 1 - i).
  - exists [], G, xs. cj; auto. now exists 0.
  - lia.
  - intros i m (done & G' & o & -> & HG' & LG' & HOUT & -> & HLN & HEV).
    destruct G' as [|c1 [|c2 [|]]]; try discriminate LG'. destruct o as [|x [|y o]].
    + simpl in HLN. destruct (Nat.ltb_spec (length done + 1) (length xs)); [lia|]. apply wp_ret.
      replace (length xs mod 2) with 0. { change (0 =? 1) with false. cbv iota. apply wp_ret. replace (pre ++ map Val done ++ [c1; c2] ++ map Val [] ++ post) with (pre ++ map Val (done ++ []) ++ [c1; c2] ++ post) by solve_app. apply HQ; auto. apply HOUT. apply sb_nil. }
      destruct HEV as [k Ek]. symmetry. apply Nat.mod_divides; [lia|]. exists k. lia.
    + simpl in HLN. destruct (Nat.ltb_spec (length done + 1) (length xs)); [lia|]. apply wp_ret.
      replace (length xs mod 2) with 1. 2:{ destruct HEV as [k Ek]. apply Nat.mod_unique with (q := k); lia. }
      change (1 =? 1) with true. cbv iota. reshape ((pre ++ map Val done) ++ c1 :: [c2] ++ Val x :: post).
      eapply transfer_left_wp with (g := [c2]); [exact HG'|rewrite app_length, map_length; lia|rewrite app_length, map_length; simpl; lia|]. intros c1' HG1.
      replace ((pre ++ map Val done) ++ Val x :: [c2] ++ c1' :: post) with (pre ++ map Val (done ++ [x]) ++ [c2; c1'] ++ post) by solve_app. apply HQ.
      * apply HOUT. apply (sb_last comp proj 2 [x]). simpl. lia.
      * eapply gapok_perm; [exact HG1|apply perm_swap].
    + simpl in HLN. destruct (Nat.ltb_spec (length done + 1) (length xs)); [|lia].
      match goal with |- wp _ ?KK ?mm => assert (wp (let* c := compare_at comp proj (length pre + length done + 2) (length pre + length done + 3) in
        let u := if (0 <? c)%Z then 1 else 0 in
        transfer ext (length pre + length done) (length pre + length done + 2 + u) ;; transfer ext (length pre + length done + 1) (length pre + length done + 3 - u))
        (fun _ m' => KK (inl (length done + 1 + 2)) m') mm) as HP end.
      { reshape ((pre ++ map Val done) ++ [c1; c2] ++ map Val [x; y] ++ (map Val o ++ post)).
        eapply transfer_pair_wp; [exact HG'|lens|]. intros c1' c2' HG2. split; [|lia].
        assert (length (ssort [x; y]) = 2) as L2 by now rewrite ssort_length.
        exists (done ++ ssort [x; y]), [c1'; c2'], o. cj; auto; try (rewrite app_length; lia).
        - solve_app.
        - intros out Ho. rewrite <- app_assoc. apply HOUT. apply (sb_full comp proj 2 [x; y]); auto.
        - rewrite app_length, L2. destruct HEV as [k ->]. exists (k + 1). lia. }
      apply wp_bind. replace (length pre + 2 + (length done + 1) - 1) with (length pre + length done + 2) by lia.
      replace (length pre + 2 + (length done + 1)) with (length pre + length done + 3) by lia.
      unfold wp, bind in HP. unfold wp at 1.
      destruct (compare_at comp proj (length pre + length done + 2) (length pre + length done + 3) _) as [c m1| |]; auto. cbv zeta in *.
      replace (length pre + length done + 3 - 3) with (length pre + length done) by lia. replace (length pre + length done + 3 - 2) with (length pre + length done + 1) by lia.
      replace (length pre + 2 + (length done + 1 - 1 + (if (0 <? c)%Z then 1 else 0))) with (length pre + length done + 2 + (if (0 <? c)%Z then 1 else 0)) by lia.
      replace (length pre + 2 + (length done + 1 - (if (0 <? c)%Z then 1 else 0))) with (length pre + length done + 3 - (if (0 <? c)%Z then 1 else 0)) by (destruct (0 <? c)%Z; lia).
      unfold wp, bind. destruct (transfer ext (length pre + length done) _ m1) as [v m2| |]; auto.
      destruct (transfer ext (length pre + length done + 1) _ m2) as [v2 m3| |]; auto.
Qed.

(** One pass. *)
Lemma build_pass_wp : forall ext buf G h xs cur pre post first last (Q : unit -> mem A -> Prop), gapok ext buf G -> length G = h -> 0 < h -> sb h xs cur ->
  first = length pre + h -> last = first + length xs ->
  (forall out G', sb (2 * h) xs out -> gapok ext buf G' -> Q tt (pre ++ map Val out ++ G' ++ post)) ->
  wp (build_pass comp proj triv ext h first last) Q (pre ++ G ++ map Val cur ++ post).
Proof.
  intros ext buf G h xs cur pre post first last Q HG LG Hh HSB -> -> HQ. unfold build_pass. apply wp_bind.
  apply wp_loop' with
    (I := fun p0 m => exists done G' o c, m = pre ++ map Val done ++ G' ++ map Val c ++ post /\ gapok ext buf G' /\ length G' = h /\ sb h o c /\ (forall out, sb (2 * h) o out -> sb (2 * h) xs (done ++ out)) /\
        p0 = length pre + length done + h /\ length done + length o = length xs)
    (mu := fun p0 => length pre + h + length xs - p0).
  - exists [], G, xs, cur. cj; auto.
  - lia.
  - intros p0 m (done & G' & o & c & -> & HG' & LG' & HSO & HOUT & -> & HLN).
    destruct (Nat.leb_spec (length pre + length done + h + 2 * h) (length pre + h + length xs)) as [H|H].
    + destruct (sb_first comp proj h o c HSO) as (l1 & o1 & c1 & -> & -> & L1 & HS1); [lia|]. rewrite app_length in HLN.
      destruct (sb_first comp proj h o1 c1 HS1) as (l2 & o2 & c2 & -> & -> & L2 & HS2); [lia|]. rewrite app_length in HLN.
      apply wp_bind. reshape ((pre ++ map Val done) ++ G' ++ map Val (ssort l1) ++ map Val (ssort l2) ++ (map Val c2 ++ post)).
      eapply merge_left_wp; [exact HW|exact HG'| | | | | |]; rewrite ?app_length, ?map_length, ?ssort_length; try lia.
      intros G2 HG2. apply wp_ret. split; [|lia]. rewrite merge_ssort by auto.
      assert (length G2 = h) as LG2 by (rewrite (gapok_len _ _ _ HG2), <- (gapok_len _ _ _ HG'); auto).
      exists (done ++ ssort (l1 ++ l2)), G2, o2, c2. cj; auto.
      * solve_app.
      * intros out Ho. rewrite <- app_assoc. apply HOUT. rewrite app_assoc. apply sb_full; auto. rewrite app_length. lia.
      * rewrite app_length, ssort_length, app_length. lia.
      * rewrite app_length, ssort_length, app_length. lia.
    + apply wp_ret. replace (length pre + h + length xs - (length pre + length done + h)) with (length o) by lia.
      destruct (Nat.ltb_spec h (length o)) as [H1|H1].
      * destruct (sb_first comp proj h o c HSO) as (l1 & o1 & c1 & -> & -> & L1 & HS1); [lia|]. rewrite app_length in *.
        rewrite (sb_short comp proj h o1 c1) by (auto; lia).
        reshape ((pre ++ map Val done) ++ G' ++ map Val (ssort l1) ++ map Val (ssort o1) ++ post).
        eapply merge_left_wp; [exact HW|exact HG'| | | | | |]; rewrite ?app_length, ?map_length, ?ssort_length; try lia.
        intros G2 HG2. rewrite merge_ssort by auto.
        replace ((pre ++ map Val done) ++ map Val (ssort (l1 ++ o1)) ++ G2 ++ post) with (pre ++ map Val (done ++ ssort (l1 ++ o1)) ++ G2 ++ post) by solve_app.
        apply HQ; auto. apply HOUT. apply sb_last. rewrite app_length. lia.
      * rewrite (sb_short comp proj h o c) in * by auto.
        assert (forall G2, gapok ext buf G2 -> Q tt (pre ++ map Val (done ++ ssort o) ++ G2 ++ post)) as HQ2. { intros G2 HG2. apply HQ; auto. apply HOUT. apply sb_last. lia. }
        destruct ext.
        -- apply wp_bind. reshape ((pre ++ map Val done) ++ G' ++ map Val (ssort o) ++ post). destruct HG' as [HG1 HG2].
           apply move_range_left_wp; auto; rewrite ?app_length, ?map_length, ?ssort_length; try lia. { intros ->. simpl in LG'. lia. }
           intros G2 L2 H2. apply wp_ret. replace ((pre ++ map Val done) ++ map Val (ssort o) ++ G2 ++ post) with (pre ++ map Val (done ++ ssort o) ++ G2 ++ post) by solve_app. apply HQ2. split; auto. congruence.
        -- apply wp_bind. unfold rotate_ra. destruct (gapok_vals _ _ HG') as (ys & -> & HP). rewrite map_length in LG'.
           reshape ((pre ++ map Val done) ++ map Val (ys ++ ssort o) ++ post).
           apply rotate_wp; rewrite ?app_length, ?map_length, ?ssort_length; try lia. apply wp_ret.
           replace ((pre ++ map Val done) ++ map Val (ssort o ++ ys) ++ post) with (pre ++ map Val (done ++ ssort o) ++ map Val ys ++ post) by solve_app. apply HQ2. auto.
Qed.

(** The passes. *)
Lemma build_passes_wp : forall ext buf j h Ga Gb xs cur pre post first last (Q : nat * nat * nat -> mem A -> Prop), gapok ext buf (Ga ++ Gb) -> length Gb = h -> 0 < h ->
  length Ga + length Gb = 2 ^ j * h -> sb h xs cur -> first = length pre + length Ga -> last = first + length xs ->
  (forall out G', sb (2 ^ j * h) xs out -> gapok ext buf G' -> Q (length pre, length pre + length xs, 2 ^ j * h) (pre ++ map Val out ++ G' ++ post)) ->
  wp (build_passes comp proj triv ext (2 ^ j * h) first last h) Q (pre ++ Ga ++ map Val cur ++ Gb ++ post).
Proof.
  intros ext buf j h Ga Gb xs cur pre post first last Q HG LG Hh HT HSB -> -> HQ. unfold build_passes.
  apply wp_loop' with
    (I := fun '(f, l, h') m => exists i Ga' Gb' c, m = pre ++ Ga' ++ map Val c ++ Gb' ++ post /\ gapok ext buf (Ga' ++ Gb') /\ length Gb' = h' /\ h' = 2 ^ i * h /\ i <= j /\
        sb h' xs c /\ f = length pre + length Ga' /\ l = f + length xs)
    (mu := fun '(f, l, h') => f - length pre).
  - exists 0, Ga, Gb, cur. cj; auto; simpl; lia.
  - lia.
  - intros [[f l] h'] m (i & Ga' & Gb' & c & -> & HG' & LG' & Eh & Hi & HSO & -> & ->).
    assert (length Ga' + length Gb' = 2 ^ j * h) as HT' by (rewrite <- HT, <- !app_length, (gapok_len _ _ _ HG), (gapok_len _ _ _ HG'); auto).
    assert (0 < h') as Hh'. { rewrite Eh. assert (0 < 2 ^ i) by (apply Nat.neq_0_lt_0, Nat.pow_nonzero; lia). nia. }
    destruct (Nat.ltb_spec h' (2 ^ j * h)) as [H|H].
    + assert (i < j) as Hij. { destruct (Nat.eq_dec i j) as [->|]; lia. }
      assert (2 * h' <= 2 ^ j * h) as H2. { rewrite Eh. replace j with (S i + (j - S i)) by lia. rewrite Nat.pow_add_r. simpl Nat.pow. assert (0 < 2 ^ (j - S i)) by (apply Nat.neq_0_lt_0, Nat.pow_nonzero; lia). nia. }
      assert (exists g1 g2, Ga' = g1 ++ g2 /\ length g2 = h') as (g1 & g2 & -> & Lg2).
      { exists (firstn (length Ga' - h') Ga'), (skipn (length Ga' - h') Ga'). rewrite firstn_skipn, skipn_length. split; auto. lia. }
      rewrite app_length in *.
      destruct (gapok_part ext buf g2 (g1 ++ Gb')) as (b1 & HB1 & HB2). { eapply gapok_perm; [exact HG'|]. rewrite <- app_assoc. rewrite Permutation_app_comm, <- app_assoc. apply Permutation_app_head. apply Permutation_app_comm. }
      apply wp_bind. reshape ((pre ++ g1) ++ g2 ++ map Val c ++ Gb' ++ post).
      eapply build_pass_wp; [exact HB1|auto|auto|exact HSO|rewrite app_length; lia|lia|].
      intros out G2 HO HG2. apply wp_ret. split; [|lia].
      assert (length G2 = h') as L2 by (rewrite (gapok_len _ _ _ HG2), <- (gapok_len _ _ _ HB1); auto).
      exists (S i), g1, (G2 ++ Gb'), out. cj; auto; try lia.
      * solve_app.
      * eapply gapok_perm; [exact (HB2 _ HG2)|]. rewrite !app_assoc. apply Permutation_app_tail, Permutation_app_comm.
      * rewrite app_length. lia.
      * simpl Nat.pow. lia.
      * now rewrite (Nat.mul_comm h' 2).
    + apply wp_ret. assert (2 ^ i <= 2 ^ j) by (apply Nat.pow_le_mono_r; lia). assert (h' = 2 ^ j * h) as Eh2 by nia.
      assert (Ga' = []) as -> by (destruct Ga'; auto; simpl in HT'; lia). simpl app in *. simpl length in *. rewrite Nat.add_0_r. rewrite Eh2 in *. now apply HQ.
Qed.

Lemma sb_split : forall n j o c, sb n o c -> j * n <= length o -> exists o1 o2 c1 c2, o = o1 ++ o2 /\ c = c1 ++ c2 /\ length o1 = j * n /\ sb n o1 c1 /\ sb n o2 c2.
Proof.
  intros n. induction j as [|j IH]; intros o c H HL.
  - exists [], o, [], c. cj; auto. apply sb_nil.
  - destruct (sb_first comp proj n o c H) as (l & o1 & c1 & -> & -> & L1 & HS); [lia|]. rewrite app_length in HL.
    destruct (IH o1 c1 HS) as (o2 & o3 & c2 & c3 & -> & -> & L2 & H2 & H3); [lia|].
    exists (l ++ o2), o3, (ssort l ++ c2), c3. cj; auto; [solve_app|solve_app|rewrite app_length; lia|now apply sb_full].
Qed.

Lemma build_blocks_wp : forall K jk buf xs X pre p1 p2 first last extbuf LExt (Q : unit -> mem A -> Prop), length buf = K -> K = 2 ^ jk -> 2 <= K ->
  Forall live X -> (LExt = 0%Z \/ LExt = Z.of_nat (length X)) -> length X <> 1 -> first = length pre + K -> last = first + length xs -> extbuf = last + length p1 ->
  (forall buf' out X', Permutation buf buf' -> sb (2 * K) xs out -> Forall live X' -> length X' = length X -> Q tt (pre ++ map Val buf' ++ map Val out ++ p1 ++ X' ++ p2)) ->
  wp (build_blocks comp proj triv first last K extbuf LExt) Q (pre ++ map Val buf ++ map Val xs ++ p1 ++ X ++ p2).
Proof.
  intros K jk buf xs X pre p1 p2 first last extbuf LExt Q LB EK HK2 HX HLE HX1 -> -> -> HQ. unfold build_blocks.
  replace (length pre + K + length xs - (length pre + K)) with (length xs) by lia.
  assert ((LExt <? 0)%Z = false) as -> by (apply Z.ltb_ge; lia).
  apply wp_bind. apply power_of_2_wp. intros kbuf R1 R2 R3 R4.
  assert (forall c n, In c (repeat (@Moved A) n) -> live c) as HMV by (intros c n Hc; apply repeat_spec in Hc; subst c; discriminate).
  apply wp_bind.
  (* the end *)
  match goal with |- wp _ ?KK _ => assert (forall h j Ga Gb cur X', h = kbuf \/ h = 2 -> 2 ^ j * h = K -> gapok false buf (Ga ++ Gb) -> length Gb = h -> 0 < h -> sb h xs cur -> Forall live X' -> length X' = length X ->
     KK (length pre + length Ga, length pre + length Ga + length xs, h) (pre ++ Ga ++ map Val cur ++ Gb ++ p1 ++ X' ++ p2)) as HEND end.
  { intros h j Ga Gb cur X' _ EJ HG LG Hh HSB HX' LX'. cbv beta iota. apply wp_bind. rewrite <- EJ.
    eapply build_passes_wp; [exact HG|auto|auto| |exact HSB|auto|auto|].
    { rewrite EJ, <- LB. rewrite <- app_length. now apply gapok_len in HG. }
    rewrite EJ. intros out G2 HO HG2. pose proof (gapok_len _ _ _ HG2) as LG2.
    pose proof (Nat.div_mod (length xs) (2 * K) ltac:(lia)) as DN. pose proof (Nat.mod_upper_bound (length xs) (2 * K) ltac:(lia)) as MN.
    set (restk := length xs mod (2 * K)) in *. set (N := length xs / (2 * K)) in *. clearbody restk N.
    destruct (sb_split K (2 * N) xs out HO) as (x1 & x2 & o1 & o2 & Exs & -> & L1 & HS1 & HS2). { lia. }
    assert (length x2 = restk) as L2. { apply (f_equal (@length A)) in Exs. rewrite app_length in Exs. lia. }
    pose proof (sb_length _ _ _ _ _ HS1) as Lo1. pose proof (sb_length _ _ _ _ _ HS2) as Lo2.
    replace (length pre + length xs - restk) with (length pre + length x1) by lia.
    apply wp_bind.
    match goal with |- wp _ ?KK _ => assert (forall G3 r2, gapok false buf G3 -> sb (2 * K) x2 r2 -> KK tt (pre ++ map Val o1 ++ G3 ++ map Val r2 ++ p1 ++ X' ++ p2)) as HK end.
    { intros G3 r2 HG3 HR2.
      apply wp_loop' with
        (I := fun p m => exists i y1 y2 c1 c2 G4, m = pre ++ map Val c1 ++ G4 ++ map Val c2 ++ p1 ++ X' ++ p2 /\ gapok false buf G4 /\ xs = y1 ++ y2 /\ sb K y1 c1 /\ sb (2 * K) y2 c2 /\
           length y1 = i * (2 * K) /\ p = length pre + length y1)
        (mu := fun p => p - length pre).
      - exists N, x1, x2, o1, r2, G3. cj; auto. lia.
      - lia.
      - intros p m (i & y1 & y2 & c1 & c2 & G4 & -> & HG4 & Ey & HY1 & HY2 & Ly & ->). pose proof (gapok_len _ _ _ HG4) as LG4.
        destruct i as [|i].
        + destruct y1; [|simpl in Ly; lia]. simpl length. rewrite Nat.add_0_r, Nat.ltb_irrefl. apply wp_ret. apply sb_length in HY1. destruct c1; [|discriminate].
          simpl in Ey. subst y2. destruct (gapok_vals _ _ HG4) as (b4 & -> & HP4). simpl app. apply HQ; auto.
        + destruct (Nat.ltb_spec (length pre) (length pre + length y1)); [|nia].
          destruct (sb_split K (2 * i) y1 c1 HY1) as (u1 & u2 & d1 & d2 & -> & -> & Lu1 & HU1 & HU2). { lia. }
          rewrite app_length in *. 
          destruct (sb_first comp proj K u2 d2 HU2) as (l1 & u3 & d3 & -> & -> & Ll1 & HU3); [lia|]. rewrite app_length in *.
          rewrite (sb_short comp proj K u3 d3) by (auto; lia). pose proof (sb_length _ _ _ _ _ HU1) as Ld1.
          apply wp_bind. reshape ((pre ++ map Val d1) ++ map Val (ssort l1) ++ map Val (ssort u3) ++ G4 ++ (map Val c2 ++ p1 ++ X' ++ p2)).
          eapply merge_right_wp; [exact HW|exact HG4| | |now apply ssort_sorted|now apply ssort_sorted| | | | |]; rewrite ?app_length, ?map_length, ?ssort_length; try lia.
          { intros E. apply (f_equal (@length A)) in E. rewrite ssort_length in E. simpl in E. lia. }
          intros G5 HG5. apply wp_ret. split; [|lia]. rewrite merge_ssort by auto.
          exists i, u1, (l1 ++ u3 ++ y2), d1, (ssort (l1 ++ u3) ++ c2), G5. cj; auto; try lia.
          * solve_app.
          * rewrite Ey. solve_app.
          * rewrite app_assoc. apply sb_full; auto. rewrite app_length. lia. }
    destruct (Nat.leb_spec restk K) as [H|H].
    - apply wp_bind. unfold rotate_ra. rewrite (sb_short comp proj K x2 o2) in * by (auto; lia). destruct (gapok_vals _ _ HG2) as (ys & -> & HP). rewrite map_length in LG2.
      reshape ((pre ++ map Val o1) ++ map Val (ssort x2 ++ ys) ++ p1 ++ X' ++ p2).
      apply rotate_wp; rewrite ?app_length, ?map_length, ?ssort_length; try lia. apply wp_ret.
      reshape (pre ++ map Val o1 ++ map Val ys ++ map Val (ssort x2) ++ p1 ++ X' ++ p2). apply HK; auto. apply sb_last. lia.
    - destruct (sb_first comp proj K x2 o2 HS2) as (l1 & u3 & d3 & -> & -> & Ll1 & HU3); [lia|]. rewrite app_length in *.
      rewrite (sb_short comp proj K u3 d3) in * by (auto; lia). rewrite !ssort_length in *.
      reshape ((pre ++ map Val o1) ++ map Val (ssort l1) ++ map Val (ssort u3) ++ G2 ++ p1 ++ X' ++ p2).
      eapply merge_right_wp; [exact HW|exact HG2| | |now apply ssort_sorted|now apply ssort_sorted| | | | |]; rewrite ?app_length, ?map_length, ?ssort_length; try lia.
      { intros E. apply (f_equal (@length A)) in E. rewrite ssort_length in E. simpl in E. lia. }
      intros G5 HG5. rewrite merge_ssort by auto. reshape (pre ++ map Val o1 ++ G5 ++ map Val (ssort (l1 ++ u3)) ++ p1 ++ X' ++ p2). apply HK; auto. apply sb_last. rewrite app_length. lia. }
  assert (exists j2, K = 2 ^ j2 * 2) as (j2 & EJ2). { destruct jk as [|jk]; [simpl in EK; lia|]. exists jk. rewrite EK. simpl. lia. }
  destruct (Nat.eqb_spec kbuf 0) as [E0|E0].
  - assert (exists b1 b2, buf = b1 ++ b2 /\ length b2 = 2) as (b1 & b2 & Eb & Lb2).
    { exists (firstn (K - 2) buf), (skipn (K - 2) buf). rewrite firstn_skipn, skipn_length. split; auto. lia. }
    apply wp_bind. rewrite Eb. reshape ((pre ++ map Val b1) ++ map Val b2 ++ map Val xs ++ p1 ++ X ++ p2).
    assert (length b1 + 2 = K) as Lb1 by (rewrite <- LB, Eb, app_length; lia).
    apply (build_pairs_wp false b2); [red; auto|now rewrite map_length|rewrite app_length, map_length; lia|auto|].
    intros out G2 HO HG2. apply wp_ret. pose proof (gapok_len _ _ _ HG2) as LG2.
    replace (length pre + K - 2) with (length pre + length (map (@Val A) b1)) by (rewrite map_length; lia).
    replace (length pre + K + length xs - 2) with (length pre + length (map (@Val A) b1) + length xs) by (rewrite map_length; lia).
    reshape (pre ++ map Val b1 ++ map Val out ++ G2 ++ p1 ++ X ++ p2).
    eapply (HEND 2 j2 (map Val b1) G2); auto; try lia.
    rewrite Eb. red. rewrite map_app. now apply Permutation_app_head.
  - assert (kbuf <= K /\ kbuf <= length X) as [HkK HkX] by lia.
    assert (0 < Nat.min K (Z.to_nat LExt)) as HM0 by (destruct (Nat.min K (Z.to_nat LExt)); [destruct E0; auto|lia]).
    destruct (R3 HM0) as (kk & Ekk).
    assert (2 <= kbuf) as Hk2 by (apply R4; lia).
    assert (exists b1 b2, buf = b1 ++ b2 /\ length b2 = kbuf) as (b1 & b2 & Eb & Lb2).
    { exists (firstn (K - kbuf) buf), (skipn (K - kbuf) buf). rewrite firstn_skipn, skipn_length. split; auto. lia. }
    assert (exists X1 X2, X = X1 ++ X2 /\ length X1 = kbuf) as (X1 & X2 & EX & LX1).
    { exists (firstn kbuf X), (skipn kbuf X). rewrite firstn_skipn, firstn_length. split; auto. lia. }
    assert (length b1 + kbuf = K) as Lb1 by (rewrite <- LB, Eb, app_length; lia).
    rewrite EX in HX. apply Forall_app in HX as [HX1' HX2'].
    apply wp_bind. rewrite Eb, EX. reshape ((pre ++ map Val b1) ++ map Val b2 ++ (map Val xs ++ p1) ++ X1 ++ (X2 ++ p2)).
    apply move_range_to_right_wp; auto; rewrite ?app_length, ?map_length; try lia.
    assert (exists k2, kbuf = 2 ^ k2 * 2) as (k2 & Ek2). { destruct kk as [|kk]; [simpl in Ekk; lia|]. exists kk. rewrite Ekk. simpl. lia. }
    apply wp_bind.
    replace (repeat Moved (length b2)) with (repeat (@Moved A) (kbuf - 2) ++ repeat Moved 2) by (rewrite <- repeat_app, Lb2; f_equal; lia).
    reshape ((pre ++ map Val b1 ++ repeat Moved (kbuf - 2)) ++ repeat Moved 2 ++ map Val xs ++ (p1 ++ map Val b2 ++ X2 ++ p2)).
    destruct b2 as [|e1 [|e2 b2]]; try (simpl in Lb2; lia).
    apply (build_pairs_wp true [e1; e2]); [split; [apply Forall_forall; eauto|auto]|auto|rewrite !app_length, map_length, repeat_length; lia|auto|].
    intros out G2 HO HG2. pose proof (gapok_len _ _ _ HG2) as LG2. destruct HG2 as [HG2 _]. apply wp_bind.
    replace (length pre + K - 2) with (length (pre ++ map Val b1) + length (repeat (@Moved A) (kbuf - 2))) by (rewrite app_length, map_length, repeat_length; lia).
    replace (length pre + K + length xs - 2) with (length (pre ++ map Val b1) + length (repeat (@Moved A) (kbuf - 2)) + length xs) by (rewrite app_length, map_length, repeat_length; lia).
    reshape ((pre ++ map Val b1) ++ repeat Moved (kbuf - 2) ++ map Val out ++ G2 ++ (p1 ++ map Val (e1 :: e2 :: b2) ++ X2 ++ p2)).
    simpl (length [e1; e2]) in LG2. remember (e1 :: e2 :: b2) as b3 eqn:Eb3. clear Eb3 e1 e2 b2.
    rewrite Ek2 at 1.
    eapply (build_passes_wp true b3 k2 2); [split; [apply Forall_app; split; [apply Forall_forall; eauto|exact HG2]|rewrite app_length, repeat_length; lia]|auto|lia|rewrite repeat_length; simpl in LG2; lia|exact HO|auto|auto|].
    rewrite <- Ek2. intros out2 G3 HO2 HG3. pose proof (gapok_len _ _ _ HG3) as LG3. destruct HG3 as [HG3 _].
    pose proof (sb_length _ _ _ _ _ HO2) as LO2.
    apply wp_bind. reshape ((pre ++ map Val b1 ++ map Val out2) ++ G3 ++ p1 ++ map Val b3 ++ (X2 ++ p2)).
    apply move_range_to_left_wp; auto; rewrite ?app_length, ?map_length; try lia. apply wp_ret.
    replace (length pre + length b1) with (length pre + length (map (@Val A) b1)) by now rewrite map_length.
    reshape (pre ++ map Val b1 ++ map Val out2 ++ map Val b3 ++ p1 ++ (repeat Moved (length b3) ++ X2) ++ p2).
    assert (exists j3, 2 ^ j3 * kbuf = K) as (j3 & EJ3).
    { exists (jk - kk). rewrite Ekk, EK, <- Nat.pow_add_r. f_equal. assert (kk <= jk); [|lia]. apply (Nat.pow_le_mono_r_iff 2); lia. }
    eapply (HEND kbuf j3 (map Val b1) (map Val b3)); auto; try lia.
    + red. rewrite Eb, map_app. auto.
    + now rewrite map_length.
    + apply Forall_app. split; auto. apply Forall_forall. eauto.
    + rewrite app_length, repeat_length, EX, app_length. lia.
Qed.
End Build.
