(** C72: max_for_size gives the greatest value of each measure of presortedness, for every size. *)
From Coq Require Import List Arith Permutation Lia ZArith Bool Zify ZifyNat.
From Verif Require Import Spec.Order Spec.Probes Lang.Mem Spec.Sorts Model.Rotate Model.Probes Model.Heap
  Proofs.OrderLib Proofs.Heap Proofs.Examples Proofs.ProbesA Proofs.ProbesB Proofs.ProbesMax Props.Probes.
Import ListNotations.
Ltac Zify.zify_post_hook ::= Z.to_euclidean_division_equations.

(** ** C72 *)
Theorem C72_max_for_size_is_greatest :
  forall (inner : (nat -> nat -> bool) -> (nat * nat -> nat) -> range_prog (nat * nat)) (cat : category) (alloc_ok iterable ra opt : bool) (n : nat),
    inner_sorts inner ->
    greatest_for_size Nat.le (probe_inv Nat.ltb (fun x : nat => x)) n (inv_max_for_size n) /\
    greatest_for_size Nat.le (rem_of Nat.ltb (fun x : nat => x) iterable ra) n (rem_max_for_size n) /\
    greatest_for_size Nat.le (probe_sus Nat.ltb (fun x : nat => x) ra) n (sus_max_for_size n) /\
    greatest_for_size Nat.le (probe_runs Nat.ltb (fun x : nat => x)) n (runs_max_for_size n) /\
    greatest_for_size Nat.le (probe_mono Nat.ltb (fun x : nat => x)) n (mono_max_for_size n) /\
    greatest_for_size Nat.le (probe_dis Nat.ltb (fun x : nat => x) cat alloc_ok) n (dis_max_for_size n) /\
    greatest_for_size Nat.le (probe_exc Nat.ltb (fun x : nat => x) inner) n (exc_max_for_size n) /\
    greatest_for_size Nat.le (probe_max Nat.ltb (fun x : nat => x) inner) n (max_max_for_size n) /\
    greatest_for_size Nat.le (probe_enc Nat.ltb (fun x : nat => x) opt) n (enc_max_for_size n) /\
    greatest_for_size Nat.le (probe_block Nat.ltb (fun x : nat => x) inner) n (block_max_for_size n) /\
    (n <> 1 -> greatest_for_size Nat.le (probe_ham Nat.ltb (fun x : nat => x) inner) n (ham_max_for_size n)).
Proof.
  intros inner cat alloc_ok iterable ra opt n HI. pose proof nat_ltb_swo as HW.
  split; [|split; [|split; [|split; [|split; [|split; [|split; [|split; [|split; [|split]]]]]]]]].
  - eapply (greatest _ inv_max_for_size _ _ (desc n)); [intros xs; now apply C31_inv_counts_inversions|cbv beta; tauto|apply desc_length|].
    cbv beta. intros r [-> _]. pose proof (desc_inversions n) as E. change (by_proj Nat.ltb (fun x : nat => x)) with Nat.ltb.
    unfold inv_max_for_size. destruct (Nat.eqb_spec n 0); lia.
  - eapply (greatest _ rem_max_for_size _ _ (desc n)); [intros xs; now apply C32_rem_is_distance_to_sorted_subsequence|cbv beta; tauto|apply desc_length|].
    cbv beta. intros r [(k & Hk & -> & _) _]. pose proof (desc_lnds n k Hk) as E. rewrite desc_length.
    unfold rem_max_for_size. destruct (Nat.eqb_spec n 0); lia.
  - eapply (greatest _ sus_max_for_size _ _ (desc n)); [intros xs; now apply C33_sus_is_min_splits|cbv beta; tauto|apply desc_length|].
    cbv beta. intros r [(k & [Hk _] & -> & _) _]. pose proof (desc_splits n k Hk) as E.
    unfold sus_max_for_size. destruct (Nat.eqb_spec n 0); lia.
  - eapply (greatest _ runs_max_for_size _ _ (desc n)); [intros xs; now apply C34_runs_counts_step_downs|cbv beta; tauto|apply desc_length|].
    cbv beta. intros r [-> _]. pose proof (desc_steps n) as E. change (by_proj Nat.ltb (fun x : nat => x)) with Nat.ltb.
    unfold runs_max_for_size. destruct (Nat.eqb_spec n 0); lia.
  - eapply (greatest _ mono_max_for_size _ _ (zigzag n)); [intros xs; now apply C35_mono_counts_greedy_runs|cbv beta; tauto|apply wit_length|].
    cbv beta. intros r [(k & Hk & ->) _]. pose proof (zigzag_greedy _ k Hk (zigzag_alternates n)) as E. unfold zigzag in E. rewrite wit_length in E.
    unfold mono_max_for_size. destruct (Nat.eqb_spec n 0); lia.
  - eapply (greatest _ dis_max_for_size _ _ (desc n)); [intros xs; now apply C36_dis_is_max_inversion_distance|cbv beta; tauto|apply desc_length|].
    cbv beta. intros r [-> _]. pose proof (desc_distance n) as E. change (by_proj Nat.ltb (fun x : nat => x)) with Nat.ltb.
    unfold dis_max_for_size. destruct (Nat.eqb_spec n 0); lia.
  - eapply (greatest _ exc_max_for_size _ _ (rot n)); [intros xs; now apply C37_exc_is_min_exchanges|cbv beta; tauto|apply rot_length|].
    cbv beta. intros r [_ H]. destruct (H (rot_distinct n)) as [Hr _]. pose proof (rot_exchanges n r Hr) as E.
    unfold exc_max_for_size. destruct (Nat.eqb_spec n 0); lia.
  - eapply (greatest _ max_max_for_size _ _ (desc n)); [intros xs; now apply C39_max_is_max_displacement|cbv beta; tauto|apply desc_length|].
    cbv beta. intros r [H _]. pose proof (desc_displacement n r (H _ (desc_sorting n))) as E.
    unfold max_max_for_size. destruct (Nat.eqb_spec n 0); lia.
  - eapply (greatest _ enc_max_for_size _ _ (conv n)); [intros xs; now apply C41_enc_counts_encroaching_lists|cbv beta; tauto|apply wit_length|].
    cbv beta. intros r [-> _]. pose proof (conv_encroaching n) as E. change (by_proj Nat.ltb (fun x : nat => x)) with Nat.ltb.
    unfold enc_max_for_size. destruct (Nat.eqb_spec n 0); lia.
  - eapply (greatest _ block_max_for_size _ _ (desc n)); [intros xs; now apply C42_block_counts_broken_adjacencies|cbv beta; tauto|apply desc_length|].
    cbv beta. intros r [_ H]. pose proof (desc_broken n r (H (desc_distinct n) _ (desc_sorting n))) as E.
    unfold block_max_for_size. destruct (Nat.eqb_spec n 0); lia.
  - intros Hn. eapply (greatest _ ham_max_for_size _ _ (rot n)); [intros xs; now apply C38_ham_counts_displaced|cbv beta; tauto|apply rot_length|].
    cbv beta. intros r [H _]. pose proof (H _ (rot_sorting n)) as E. change (by_proj Nat.ltb (fun x : nat => x)) with Nat.ltb in E.
    rewrite rot_hamming in E by auto. unfold ham_max_for_size. destruct (Nat.eqb_spec n 0); lia.
Qed.
Print Assumptions C72_max_for_size_is_greatest.

(** ham::max_for_size is 1 for a size of 1, where the measure is always 0. *)
Theorem C72_ham_max_for_size_refuted :
  ~ forall (inner : (nat -> nat -> bool) -> (nat * nat -> nat) -> range_prog (nat * nat)) (n : nat),
      inner_sorts inner -> greatest_for_size Nat.le (probe_ham Nat.ltb (fun x : nat => x) inner) n (ham_max_for_size n).
Proof.
  intros H. destruct (H (@heap_sorter (nat * nat) nat) 1 ltac:(intros c p Hc; now apply heap_sorts)) as [_ (xs & Hxs & HR)].
  destruct xs as [|x [|y xs]]; try discriminate.
  destruct (C38_ham_counts_displaced nat nat Nat.ltb (fun x => x) (@heap_sorter (nat * nat) nat) [x] nat_ltb_swo
    ltac:(intros c p Hc; now apply heap_sorts) [] []) as (r & E & Hr & _).
  destruct (HR [] []) as (r' & E' & ->). rewrite E in E'. inversion E'; subst r. clear E E'.
  assert (is_sorting_of (by_proj Nat.ltb (fun x : nat => x)) [x] [x]) as HS by (split; [auto|apply sorted_one]).
  specialize (Hr _ HS). unfold hamming in Hr. cbn -[by_proj equivalent] in Hr.
  assert (equivalent (by_proj Nat.ltb (fun x : nat => x)) x x = true) as E.
  { unfold equivalent, by_proj. now rewrite Nat.ltb_irrefl. }
  rewrite E in Hr. discriminate.
Qed.
Print Assumptions C72_ham_max_for_size_refuted.

(** The greatest oscillation, for every size. *)
Theorem C72_osc_greatest :
  forall (inner : (nat -> nat -> bool) -> (nat * nat -> nat) -> range_prog (nat * nat)) (alloc_ok : bool) (n : nat),
    inner_sorts inner ->
    greatest_for_size Z.le (probe_osc Nat.ltb (fun x : nat => x) inner alloc_ok) n (Z.of_nat (n * (n - 2) / 2)).
Proof.
  intros inner alloc_ok n HI. pose proof nat_ltb_swo as HW. split.
  - intros xs <-. eapply returns_mono; [|now apply C40_osc_is_oscillation]. cbv beta. intros r [-> Hr].
    destruct (Nat.le_gt_cases (length xs) 2).
    + rewrite Z.max_l in Hr by lia. lia.
    + rewrite Z.max_r in Hr by lia. set (n := length xs) in *. clearbody n. set (o := oscillation _ xs) in *. clearbody o.
      apply Nat2Z.inj_le. apply Nat.div_le_lower_bound; [lia|]. nia.
  - destruct (Nat.le_gt_cases n 1) as [Hn|Hn].
    + exists (seq 0 n). split; [apply seq_length|]. eapply returns_mono; [|now apply C40_osc_is_oscillation]. cbv beta. intros r [-> Hr].
      rewrite seq_length in Hr. rewrite Z.max_l in Hr by lia. destruct n as [|[|n]]; simpl; lia.
    + exists (wave n). split; [apply wit_length|]. eapply returns_mono; [|now apply C40_osc_is_oscillation]. cbv beta. intros r [-> _].
      change (by_proj Nat.ltb (fun x : nat => x)) with Nat.ltb. now rewrite wave_oscillation.
Qed.
Print Assumptions C72_osc_greatest.

(** osc::max_for_size is the greatest oscillation for the odd sizes other than 1, and is less for 1 and for every even
    size of at least 4. *)
Theorem C72_osc_max_for_size_exact :
  forall (inner : (nat -> nat -> bool) -> (nat * nat -> nat) -> range_prog (nat * nat)) (alloc_ok : bool) (n : nat),
    inner_sorts inner ->
    (greatest_for_size Z.le (probe_osc Nat.ltb (fun x : nat => x) inner alloc_ok) n (osc_max_for_size (Z.of_nat n)) <->
     n = 0 \/ n = 2 \/ (1 < n /\ Nat.odd n = true)) /\
    (n = 1 \/ (2 < n /\ Nat.even n = true) ->
     exists xs, length xs = n /\ returns (probe_osc Nat.ltb (fun x : nat => x) inner alloc_ok) xs (fun r => (osc_max_for_size (Z.of_nat n) < r)%Z)).
Proof.
  intros inner alloc_ok n HI. pose proof (C72_osc_greatest inner alloc_ok n HI) as HG.
  assert (n = 1 \/ (2 < n /\ Nat.even n = true) -> (osc_max_for_size (Z.of_nat n) < Z.of_nat (n * (n - 2) / 2))%Z) as HL.
  { intros [->|[Hn He]]; [reflexivity|]. apply Nat.even_spec in He as (p & ->). unfold osc_max_for_size.
    destruct (Z.eqb_spec (Z.of_nat (2 * p)) 0); [lia|]. destruct p as [|q]; [lia|].
    replace (2 * S q * (2 * S q - 2) / 2) with (S q * (2 * q)).
    2:{ replace (2 * S q * (2 * S q - 2)) with (S q * (2 * q) * 2) by lia. now rewrite Nat.div_mul. }
    rewrite Z.quot_div_nonneg by nia. apply Z.div_lt_upper_bound; nia. }
  assert (n = 0 \/ n = 2 \/ (1 < n /\ Nat.odd n = true) -> osc_max_for_size (Z.of_nat n) = Z.of_nat (n * (n - 2) / 2)) as HE.
  { intros [->|[->|[Hn Ho]]]; [reflexivity|reflexivity|]. apply Nat.odd_spec in Ho as (p & ->). unfold osc_max_for_size.
    destruct (Z.eqb_spec (Z.of_nat (2 * p + 1)) 0); [lia|]. destruct p as [|q]; [lia|].
    replace ((2 * S q + 1) * (2 * S q + 1 - 2) / 2) with (2 * q * q + 4 * q + 1) by lia.
    rewrite Z.quot_div_nonneg by nia. symmetry. apply Z.div_unique with (r := 0%Z); [left; lia|nia]. }
  assert ((n = 0 \/ n = 2 \/ (1 < n /\ Nat.odd n = true)) \/ (n = 1 \/ (2 < n /\ Nat.even n = true))) as HC.
  { rewrite <- Nat.negb_odd. destruct (Nat.odd n) eqn:E; simpl; [|].
    - assert (n <> 0) by (intros ->; discriminate). lia.
    - assert (n <> 1) by (intros ->; discriminate). lia. }
  split.
  - split.
    + intros [H1 _]. destruct HC as [HC|HC]; auto. exfalso. specialize (HL HC). destruct HG as [_ (xs & Hxs & HR)].
      destruct (H1 xs Hxs [] []) as (r & E & Hr). destruct (HR [] []) as (r' & E' & ->). rewrite E in E'. inversion E'; subst r. cbv beta in Hr. exact (Zlt_not_le _ _ HL Hr).
    + intros H. now rewrite (HE H).
  - intros H. specialize (HL H). destruct HG as [_ (xs & Hxs & HR)]. exists xs. split; auto.
    eapply returns_mono; [|exact HR]. cbv beta. intros r ->. exact HL.
Qed.
Print Assumptions C72_osc_max_for_size_exact.

Example C72_case :
  inner_sorts (@heap_sorter (nat * nat) nat) /\
  inv_max_for_size 6 = 15 /\ probe_inv Nat.ltb (fun x => x) 0 6 (map Val [5; 4; 3; 2; 1; 0]) = Ok 15 (map Val [5; 4; 3; 2; 1; 0]) /\
  enc_max_for_size 6 = 2 /\ probe_enc Nat.ltb (fun x => x) true 0 6 (map Val [0; 5; 1; 4; 2; 3]) = Ok 2 (map Val [0; 5; 1; 4; 2; 3]) /\
  osc_max_for_size 6 = 11%Z /\
  probe_osc Nat.ltb (fun x => x) (@heap_sorter (nat * nat) nat) true 0 6 (map Val [2; 4; 0; 5; 1; 3]) = Ok 12%Z (map Val [2; 4; 0; 5; 1; 3]).
Proof. split; [intros c p Hc; now apply heap_sorts|]. repeat split; vm_compute; reflexivity. Qed.
