(** C31 to C42 and C59: the measures of presortedness.

    The probes exc, ham, max, osc and block sort a vector of iterators with pdqsort; [inner] is any function which
    sorts whenever the comparison it is given is a strict weak order. *)
From Coq Require Import List Arith Permutation Lia ZArith Bool Zify ZifyNat.
From Verif Require Import Spec.Order Spec.Probes Lang.Mem Spec.Sorts Model.Rotate Model.Probes Model.Heap
  Proofs.OrderLib Proofs.Wp Proofs.Heap Proofs.Examples Proofs.ProbesA Proofs.ProbesB Proofs.ProbesC Proofs.ProbesD
  Proofs.ProbesE Proofs.ProbesF Proofs.ProbesG Proofs.ProbesH Proofs.ProbesI.
Import ListNotations.
Ltac Zify.zify_post_hook ::= Z.to_euclidean_division_equations.

Lemma nth_error_nil_none : forall X i, nth_error (@nil X) i = None.
Proof. destruct i; reflexivity. Qed.
Definition inner_sorts {A T} (inner : (T -> T -> bool) -> (nat * A -> T) -> range_prog (nat * A)) : Prop :=
  forall c p, strict_weak_order c -> sorts (by_proj c p) (inner c p).

Local Tactic Notation "run" uconstr(L) :=
  intros;
  match goal with |- returns ?prog ?xs ?P => intros pre post;
    assert (wp (prog (length pre) (length pre + length xs)) (fun r m => m = pre ++ map Val xs ++ post /\ P r)
      (pre ++ map Val xs ++ post)) as W; [apply L; auto; intros; split; auto; cbv beta|
    let r := fresh in let m := fresh in let E := fresh in let H := fresh in apply wp_ok in W as (r & m & E & -> & H); exists r; auto] end.

(** ** C31 *)

Theorem C31_inv_counts_inversions :
  forall (A T : Type) (comp : T -> T -> bool) (proj : A -> T) (xs : list A),
    strict_weak_order comp ->
    returns (probe_inv comp proj) xs (fun r =>
      r = length (inversion_pairs (by_proj comp proj) xs) /\ r <= inv_max_for_size (length xs)).
Proof.
  run probe_inv_wp.
  split; auto. rewrite ninv_pairs. pose proof (ninv_bound (by_proj comp proj) xs). unfold inv_max_for_size.
  destruct (Nat.eqb_spec (length xs) 0) as [E0|]; [rewrite E0 in *; simpl in *|]; lia.
Qed.
Print Assumptions C31_inv_counts_inversions.
Example C31_case :
  strict_weak_order Nat.ltb /\
  probe_inv Nat.ltb (fun x => x) 1 6 (map Val [9; 5; 2; 4; 1; 3; 0]) = Ok 7 (map Val [9; 5; 2; 4; 1; 3; 0]).
Proof. split; [apply nat_ltb_swo|vm_compute; reflexivity]. Qed.

(** ** C32 *)

(** [iterable]: whether the probe is given a collection or a pair of iterators; [ra]: random-access iterators. *)
Definition rem_of {A T} (comp : T -> T -> bool) (proj : A -> T) (iterable ra : bool) : nat -> nat -> M A nat :=
  if iterable then probe_rem_iterable comp proj ra else probe_rem comp proj ra.
Theorem C32_rem_is_distance_to_sorted_subsequence :
  forall (A T : Type) (comp : T -> T -> bool) (proj : A -> T) (iterable ra : bool) (xs : list A),
    strict_weak_order comp ->
    returns (rem_of comp proj iterable ra) xs (fun r =>
      (exists k, lnds_length (by_proj comp proj) xs k /\ r = length xs - k /\ k <= length xs) /\
      r <= rem_max_for_size (length xs)).
Proof.
  intros A T comp proj iterable ra xs HC.
  assert (forall k, lnds_length (by_proj comp proj) xs k ->
    (exists k', lnds_length (by_proj comp proj) xs k' /\ length xs - k = length xs - k' /\ k' <= length xs) /\
    length xs - k <= rem_max_for_size (length xs)) as K.
  { intros k Hk. destruct (lnds_length_le _ _ _ _ Hk) as (H1 & H2). split; [eauto|]. unfold rem_max_for_size.
    destruct (Nat.eqb_spec (length xs) 0) as [E0|E0]; [lia|]. assert (1 <= k) by (apply H2; intros ->; now apply E0). lia. }
  unfold rem_of. destruct iterable.
  - run probe_rem_iterable_wp.
  - run probe_rem_wp.
Qed.
Print Assumptions C32_rem_is_distance_to_sorted_subsequence.
Example C32_case :
  strict_weak_order Nat.ltb /\
  rem_of Nat.ltb (fun x => x) false false 1 6 (map Val [9; 5; 2; 4; 1; 4; 0]) = Ok 2 (map Val [9; 5; 2; 4; 1; 4; 0]) /\
  rem_of Nat.ltb (fun x => x) true true 1 6 (map Val [9; 5; 2; 4; 1; 4; 0]) = Ok 2 (map Val [9; 5; 2; 4; 1; 4; 0]).
Proof. split; [apply nat_ltb_swo|split; vm_compute; reflexivity]. Qed.

(** ** C33 *)

Theorem C33_sus_is_min_splits :
  forall (A T : Type) (comp : T -> T -> bool) (proj : A -> T) (ra : bool) (xs : list A),
    strict_weak_order comp ->
    returns (probe_sus comp proj ra) xs (fun r =>
      (exists k, min_splits (by_proj comp proj) xs k /\ r = k - 1 /\ (xs <> [] -> k = S r)) /\
      r <= sus_max_for_size (length xs)).
Proof.
  run probe_sus_wp.
  match goal with H : min_splits _ _ ?k |- _ => destruct (splits_bounds _ _ _ _ H) as (H1 & _ & H2); split; [exists k; split; auto; split; auto|] end.
  - intros Hne. specialize (H2 Hne). lia.
  - unfold sus_max_for_size. destruct (Nat.eqb_spec (length xs) 0); lia.
Qed.
Print Assumptions C33_sus_is_min_splits.
Example C33_case :
  strict_weak_order Nat.ltb /\
  probe_sus Nat.ltb (fun x => x) true 1 6 (map Val [9; 5; 2; 4; 1; 4; 0]) = Ok 2 (map Val [9; 5; 2; 4; 1; 4; 0]).
Proof. split; [apply nat_ltb_swo|vm_compute; reflexivity]. Qed.

(** ** C34 *)

Theorem C34_runs_counts_step_downs :
  forall (A T : Type) (comp : T -> T -> bool) (proj : A -> T) (xs : list A),
    strict_weak_order comp ->
    returns (probe_runs comp proj) xs (fun r =>
      r = length (step_downs (by_proj comp proj) xs) /\ r <= runs_max_for_size (length xs)).
Proof.
  run probe_runs_wp.
  split; auto. unfold step_downs. etransitivity; [apply filter_length_le|]. rewrite seq_length. unfold runs_max_for_size.
  destruct (Nat.eqb_spec (length xs) 0); lia.
Qed.
Print Assumptions C34_runs_counts_step_downs.
Example C34_case :
  strict_weak_order Nat.ltb /\
  probe_runs Nat.ltb (fun x => x) 1 6 (map Val [9; 5; 2; 4; 1; 4; 0]) = Ok 2 (map Val [9; 5; 2; 4; 1; 4; 0]).
Proof. split; [apply nat_ltb_swo|vm_compute; reflexivity]. Qed.

(** ** C35 *)

Theorem C35_mono_counts_greedy_runs :
  forall (A T : Type) (comp : T -> T -> bool) (proj : A -> T) (xs : list A),
    strict_weak_order comp ->
    returns (probe_mono comp proj) xs (fun r =>
      (exists k, greedy_runs (by_proj comp proj) xs k /\ r = k - 1) /\ r <= mono_max_for_size (length xs) /\
      (sorted (by_proj comp proj) xs \/ sorted (fun x y => by_proj comp proj y x) xs -> r = 0)).
Proof.
  run probe_mono_wp.
  match goal with H : greedy_runs _ _ ?k |- _ => rename H into HG end.
  split; [eauto|]. split.
  - pose proof (greedy_bound (by_proj comp proj) (swo_by_proj _ _ comp proj H) _ _ HG). unfold mono_max_for_size. destruct (Nat.eqb_spec (length xs) 0); lia.
  - intros Hm. pose proof (greedy_sorted (by_proj comp proj) _ _ Hm HG). lia.
Qed.
Print Assumptions C35_mono_counts_greedy_runs.
Example C35_case :
  strict_weak_order Nat.ltb /\
  probe_mono Nat.ltb (fun x => x) 1 6 (map Val [9; 5; 2; 4; 1; 4; 0]) = Ok 2 (map Val [9; 5; 2; 4; 1; 4; 0]) /\
  probe_mono Nat.ltb (fun x => x) 1 6 (map Val [9; 5; 4; 4; 2; 1; 0]) = Ok 0 (map Val [9; 5; 4; 4; 2; 1; 0]).
Proof. split; [apply nat_ltb_swo|split; vm_compute; reflexivity]. Qed.

(** ** C36 *)

Theorem C36_dis_is_max_inversion_distance :
  forall (A T : Type) (comp : T -> T -> bool) (proj : A -> T) (cat : category) (alloc_ok : bool) (xs : list A),
    strict_weak_order comp ->
    returns (probe_dis comp proj cat alloc_ok) xs (fun r =>
      r = max_inversion_distance (by_proj comp proj) xs /\ r <= dis_max_for_size (length xs)).
Proof.
  run probe_dis_wp.
  split; auto. destruct (max_inversion_distance_bounds (by_proj comp proj) xs) as (H1 & _). unfold dis_max_for_size.
  destruct (Nat.eqb_spec (length xs) 0); lia.
Qed.
Print Assumptions C36_dis_is_max_inversion_distance.
Example C36_case :
  strict_weak_order Nat.ltb /\
  probe_dis Nat.ltb (fun x => x) RandomAccess true 1 6 (map Val [9; 2; 5; 4; 1; 4; 0]) = Ok 3 (map Val [9; 2; 5; 4; 1; 4; 0]) /\
  probe_dis Nat.ltb (fun x => x) Bidirectional false 1 6 (map Val [9; 2; 5; 4; 1; 4; 0]) = Ok 3 (map Val [9; 2; 5; 4; 1; 4; 0]).
Proof. split; [apply nat_ltb_swo|split; vm_compute; reflexivity]. Qed.

(** ** C37 *)

Theorem C37_exc_is_min_exchanges :
  forall (A T : Type) (comp : T -> T -> bool) (proj : A -> T) (inner : (T -> T -> bool) -> (nat * A -> T) -> range_prog (nat * A)) (xs : list A),
    strict_weak_order comp ->
    inner_sorts inner ->
    returns (probe_exc comp proj inner) xs (fun r =>
      r <= exc_max_for_size (length xs) /\
      (distinct (by_proj comp proj) xs -> min_exchanges (by_proj comp proj) xs r /\ (r = 0 <-> sorted (by_proj comp proj) xs))).
Proof.
  run probe_exc_wp.
  match goal with H : distinct _ _ -> min_exchanges _ _ _ |- _ => rename H into HM end.
  split; auto. intros Hd. destruct (HM Hd) as [(ys & He & Hys) _]. split; [auto|]. split; auto.
  intros ->. inversion He; subst; auto.
Qed.
Print Assumptions C37_exc_is_min_exchanges.
Example C37_case :
  strict_weak_order Nat.ltb /\ inner_sorts (@heap_sorter (nat * nat) nat) /\ distinct (by_proj Nat.ltb (fun x => x)) [5; 2; 4; 1; 3] /\
  probe_exc Nat.ltb (fun x => x) (@heap_sorter (nat * nat) nat) 1 6 (map Val [9; 5; 2; 4; 1; 3; 0]) = Ok 3 (map Val [9; 5; 2; 4; 1; 3; 0]).
Proof. 
  split; [apply nat_ltb_swo|]. split; [intros c p Hc; now apply heap_sorts|]. split; [|vm_compute; reflexivity].
  intros [|[|[|[|[|i]]]]] [|[|[|[|[|j]]]]] x y L Hx Hy; simpl in Hx, Hy; rewrite ?nth_error_nil_none in *;
    inversion Hx; inversion Hy; subst; try lia; reflexivity.
 Qed.

(** ** C38 *)

Theorem C38_ham_counts_displaced :
  forall (A T : Type) (comp : T -> T -> bool) (proj : A -> T) (inner : (T -> T -> bool) -> (nat * A -> T) -> range_prog (nat * A)) (xs : list A),
    strict_weak_order comp ->
    inner_sorts inner ->
    returns (probe_ham comp proj inner) xs (fun r =>
      (forall ys, is_sorting_of (by_proj comp proj) xs ys -> r = hamming (by_proj comp proj) xs ys) /\
      r <= ham_max_for_size (length xs)).
Proof.
  run probe_ham_wp.
  split; auto. unfold ham_max_for_size. destruct (Nat.eqb_spec (length xs) 0); lia.
Qed.
Print Assumptions C38_ham_counts_displaced.
Example C38_case :
  strict_weak_order Nat.ltb /\ inner_sorts (@heap_sorter (nat * nat) nat) /\
  probe_ham Nat.ltb (fun x => x) (@heap_sorter (nat * nat) nat) 1 6 (map Val [9; 4; 2; 5; 4; 1; 0]) = Ok 3 (map Val [9; 4; 2; 5; 4; 1; 0]).
Proof. split; [apply nat_ltb_swo|]. split; [intros c p Hc; now apply heap_sorts|vm_compute; reflexivity]. Qed.

(** ** C39 *)

Theorem C39_max_is_max_displacement :
  forall (A T : Type) (comp : T -> T -> bool) (proj : A -> T) (inner : (T -> T -> bool) -> (nat * A -> T) -> range_prog (nat * A)) (xs : list A),
    strict_weak_order comp ->
    inner_sorts inner ->
    returns (probe_max comp proj inner) xs (fun r =>
      (forall ys, is_sorting_of (by_proj comp proj) xs ys -> max_displacement (by_proj comp proj) xs ys r) /\
      r <= max_max_for_size (length xs)).
Proof.
  run probe_max_wp.
  split; auto. unfold max_max_for_size. destruct (Nat.eqb_spec (length xs) 0); lia.
Qed.
Print Assumptions C39_max_is_max_displacement.
Example C39_case :
  strict_weak_order Nat.ltb /\ inner_sorts (@heap_sorter (nat * nat) nat) /\
  probe_max Nat.ltb (fun x => x) (@heap_sorter (nat * nat) nat) 1 6 (map Val [9; 4; 2; 5; 4; 1; 0]) = Ok 4 (map Val [9; 4; 2; 5; 4; 1; 0]).
Proof. split; [apply nat_ltb_swo|]. split; [intros c p Hc; now apply heap_sorts|vm_compute; reflexivity]. Qed.

(** ** C40 *)

(** The bound is n(n - 2) / 2, not that of osc::max_for_size. *)
Theorem C40_osc_is_oscillation :
  forall (A T : Type) (comp : T -> T -> bool) (proj : A -> T) (inner : (T -> T -> bool) -> (nat * A -> T) -> range_prog (nat * A)) (alloc_ok : bool) (xs : list A),
    strict_weak_order comp -> inner_sorts inner ->
    returns (probe_osc comp proj inner alloc_ok) xs (fun r =>
      r = Z.of_nat (oscillation (by_proj comp proj) xs) /\
      (2 * r <= Z.of_nat (length xs) * Z.max 0 (Z.of_nat (length xs) - 2))%Z).
Proof.
  run probe_osc_wp. split; auto.
  pose proof (oscillation_bound (by_proj comp proj) (swo_by_proj _ _ comp proj H) xs). nia.
Qed.
Print Assumptions C40_osc_is_oscillation.
(** Where osc::max_for_size holds. *)
Theorem C40_osc_max_for_size_odd_partial :
  forall (A T : Type) (comp : T -> T -> bool) (proj : A -> T) (inner : (T -> T -> bool) -> (nat * A -> T) -> range_prog (nat * A)) (alloc_ok : bool) (xs : list A),
    strict_weak_order comp -> inner_sorts inner -> 1 < length xs -> Nat.odd (length xs) = true ->
    returns (probe_osc comp proj inner alloc_ok) xs (fun r => (r <= osc_max_for_size (Z.of_nat (length xs)))%Z).
Proof.
  run probe_osc_wp.
  pose proof (oscillation_bound (by_proj comp proj) (swo_by_proj _ _ comp proj H) xs) as HB.
  apply Nat.odd_spec in H2 as (p & Hp). unfold osc_max_for_size. destruct (Z.eqb_spec (Z.of_nat (length xs)) 0); [lia|].
  rewrite Hp in *. assert (2 * oscillation (by_proj comp proj) xs <= (2 * p + 1) * (2 * p - 1)) as HB' by (replace (2 * p - 1) with (2 * p + 1 - 2) by lia; exact HB).
  assert (1 <= p) by lia. clear HB. set (o := oscillation (by_proj comp proj) xs) in *. clearbody o.
  apply Z.quot_le_lower_bound; [lia|]. nia.
Qed.
Print Assumptions C40_osc_max_for_size_odd_partial.
(** osc::max_for_size is too small: a permutation of four elements has an oscillation of 4 where it gives 3, and one
    element has an oscillation of 0 where it gives -1. *)
Theorem C40_osc_max_for_size_refuted :
  ~ forall (A T : Type) (comp : T -> T -> bool) (proj : A -> T) (inner : (T -> T -> bool) -> (nat * A -> T) -> range_prog (nat * A)) (alloc_ok : bool) (xs : list A),
      strict_weak_order comp -> inner_sorts inner ->
      returns (probe_osc comp proj inner alloc_ok) xs (fun r => (r <= osc_max_for_size (Z.of_nat (length xs)))%Z).
Proof.
  intros H. destruct (H nat nat Nat.ltb (fun x => x) (@heap_sorter (nat * nat) nat) true [2; 4; 1; 3]
    nat_ltb_swo ltac:(intros c p Hc; now apply heap_sorts) [] []) as (r & E & Hr).
  vm_compute in E. inversion E; subst. vm_compute in Hr. congruence.
Qed.
Print Assumptions C40_osc_max_for_size_refuted.
Example C40_case :
  strict_weak_order Nat.ltb /\ inner_sorts (@heap_sorter (nat * nat) nat) /\
  probe_osc Nat.ltb (fun x => x) (@heap_sorter (nat * nat) nat) true 1 6 (map Val [9; 3; 1; 5; 2; 4; 0]) = Ok 7%Z (map Val [9; 3; 1; 5; 2; 4; 0]) /\
  probe_osc Nat.ltb (fun x => x) (@heap_sorter (nat * nat) nat) false 1 6 (map Val [9; 3; 1; 5; 2; 4; 0]) = Ok 7%Z (map Val [9; 3; 1; 5; 2; 4; 0]) /\
  osc_max_for_size 5 = 7%Z.
Proof.
  split; [apply nat_ltb_swo|]. split; [intros c p Hc; now apply heap_sorts|]. repeat split; vm_compute; reflexivity.
Qed.

(** ** C41 *)

Theorem C41_enc_counts_encroaching_lists :
  forall (A T : Type) (comp : T -> T -> bool) (proj : A -> T) (opt : bool) (xs : list A),
    strict_weak_order comp ->
    returns (probe_enc comp proj opt) xs (fun r =>
      r = length (encroaching_lists (by_proj comp proj) xs) - 1 /\ r <= enc_max_for_size (length xs) /\
      (sorted (by_proj comp proj) xs -> r = 0)).
Proof.
  run probe_enc_wp.
  split; auto. split.
  - pose proof (encroaching_lists_bound (by_proj comp proj) (swo_by_proj _ _ comp proj H) xs). unfold enc_max_for_size.
    destruct (Nat.eqb_spec (length xs) 0); lia.
  - intros Hs. pose proof (encroaching_lists_sorted (by_proj comp proj) xs Hs). lia.
Qed.
Print Assumptions C41_enc_counts_encroaching_lists.
Example C41_case :
  strict_weak_order Nat.ltb /\
  probe_enc Nat.ltb (fun x => x) true 1 8 (map Val [9; 4; 6; 5; 2; 9; 1; 3; 0]) = Ok 1 (map Val [9; 4; 6; 5; 2; 9; 1; 3; 0]) /\
  probe_enc Nat.ltb (fun x => x) false 1 6 (map Val [9; 2; 6; 3; 5; 4; 0]) = Ok 2 (map Val [9; 2; 6; 3; 5; 4; 0]).
Proof. split; [apply nat_ltb_swo|split; vm_compute; reflexivity]. Qed.

(** ** C42 *)

Theorem C42_block_counts_broken_adjacencies :
  forall (A T : Type) (comp : T -> T -> bool) (proj : A -> T) (inner : (T -> T -> bool) -> (nat * A -> T) -> range_prog (nat * A)) (xs : list A),
    strict_weak_order comp ->
    inner_sorts inner ->
    returns (probe_block comp proj inner) xs (fun r =>
      r <= block_max_for_size (length xs) /\
      (distinct (by_proj comp proj) xs -> forall ys, is_sorting_of (by_proj comp proj) xs ys ->
         broken_adjacencies (by_proj comp proj) xs ys r)).
Proof.
  run probe_block_wp.

Qed.
Print Assumptions C42_block_counts_broken_adjacencies.
Example C42_case :
  strict_weak_order Nat.ltb /\ inner_sorts (@heap_sorter (nat * nat) nat) /\ distinct (by_proj Nat.ltb (fun x => x)) [5; 2; 3; 1; 4] /\
  probe_block Nat.ltb (fun x => x) (@heap_sorter (nat * nat) nat) 1 6 (map Val [9; 5; 2; 3; 1; 4; 0]) = Ok 3 (map Val [9; 5; 2; 3; 1; 4; 0]).
Proof. 
  split; [apply nat_ltb_swo|]. split; [intros c p Hc; now apply heap_sorts|]. split; [|vm_compute; reflexivity].
  intros [|[|[|[|[|i]]]]] [|[|[|[|[|j]]]]] x y L Hx Hy; simpl in Hx, Hy; rewrite ?nth_error_nil_none in *;
    inversion Hx; inversion Hy; subst; try lia; reflexivity.
 Qed.

(** ** C59 *)

Theorem C59_probes_zero_on_sorted :
  forall (A T : Type) (comp : T -> T -> bool) (proj : A -> T) (inner : (T -> T -> bool) -> (nat * A -> T) -> range_prog (nat * A))
      (cat : category) (alloc_ok ra iterable opt : bool) (xs : list A),
    strict_weak_order comp -> inner_sorts inner -> sorted (by_proj comp proj) xs ->
    returns (probe_inv comp proj) xs (fun r => r = 0) /\
    returns (rem_of comp proj iterable ra) xs (fun r => r = 0) /\
    returns (probe_sus comp proj ra) xs (fun r => r = 0) /\
    returns (probe_runs comp proj) xs (fun r => r = 0) /\
    returns (probe_mono comp proj) xs (fun r => r = 0) /\
    returns (probe_dis comp proj cat alloc_ok) xs (fun r => r = 0) /\
    returns (probe_exc comp proj inner) xs (fun r => r = 0) /\
    returns (probe_ham comp proj inner) xs (fun r => r = 0) /\
    returns (probe_max comp proj inner) xs (fun r => r = 0) /\
    returns (probe_osc comp proj inner alloc_ok) xs (fun r => r = 0%Z) /\
    returns (probe_enc comp proj opt) xs (fun r => r = 0) /\
    (distinct (by_proj comp proj) xs -> returns (probe_block comp proj inner) xs (fun r => r = 0)).
Proof.
  intros A T comp proj inner cat alloc_ok ra iterable opt xs HC HI HS.
  pose proof (swo_by_proj _ _ comp proj HC) as HW.
  assert (is_sorting_of (by_proj comp proj) xs xs) as HX by (split; auto).
  assert (forall X (prog : nat -> nat -> M A X) (P P' : X -> Prop), returns prog xs P -> (forall r, P r -> P' r) -> returns prog xs P') as K.
  { intros X prog P P' H1 H2 pre post. destruct (H1 pre post) as (r & E & H). eauto. }
  split; [|split; [|split; [|split; [|split; [|split; [|split; [|split; [|split; [|split; [|split]]]]]]]]]].
  - eapply K; [now apply C31_inv_counts_inversions|]. intros r [-> _]. rewrite ninv_pairs. now apply ninv_sorted.
  - eapply K; [now apply C32_rem_is_distance_to_sorted_subsequence|]. intros r [(k & H1 & -> & _) _].
    rewrite (lnds_sorted _ _ _ _ HS H1). lia.
  - eapply K; [now apply C33_sus_is_min_splits|]. intros r [(k & H1 & -> & _) _].
    destruct (splits_bounds _ _ _ _ H1) as (_ & H2 & _). specialize (H2 HS). lia.
  - eapply K; [now apply C34_runs_counts_step_downs|]. intros r [-> _]. unfold step_downs.
    assert (forall l, (forall i, In i l -> S i < length xs) -> filter (fun i => less_pos (by_proj comp proj) xs (S i) i) l = []) as F.
    { induction l as [|i l IH]; intros Hl; simpl; auto.
      rewrite (proj1 (sorted_less_pos (by_proj comp proj) xs) HS i (S i)) by lia. apply IH. intros; apply Hl; right; auto. }
    rewrite F; auto. intros i Hi. apply in_seq in Hi. lia.
  - eapply K; [now apply C35_mono_counts_greedy_runs|]. intros r (_ & _ & H). auto.
  - eapply K; [now apply C36_dis_is_max_inversion_distance|]. intros r [-> _]. now apply max_inversion_distance_bounds.
  - run probe_exc_wp.
  - eapply K; [now apply C38_ham_counts_displaced|]. intros r [H _]. rewrite (H xs HX). now apply hamming_refl.
  - eapply K; [now apply C39_max_is_max_displacement|]. intros r [H _].
    destruct (H xs HX) as [_ [H0|(i & x & Hx & Hn)]]; auto.
    specialize (Hn i x Hx (eqv_refl _ HW x)). unfold distance in Hn. lia.
  - eapply K; [now apply C40_osc_is_oscillation|]. intros r [-> _]. rewrite oscillation_sorted; auto.
  - eapply K; [now apply C41_enc_counts_encroaching_lists|]. intros r (_ & _ & H). auto.
  - intros Hd. eapply K; [now apply C42_block_counts_broken_adjacencies|]. intros r [_ H].
    destruct (H Hd xs HX) as (l & _ & <- & Hl). destruct l as [|k l]; auto. exfalso.
    destruct (proj1 (Hl k) (or_introl eq_refl)) as (x & y & Hx & Hy & Hna). apply Hna.
    exists k, x, y. repeat split; auto; now apply eqv_refl.
Qed.
Print Assumptions C59_probes_zero_on_sorted.
Example C59_case :
  strict_weak_order Nat.ltb /\ inner_sorts (@heap_sorter (nat * nat) nat) /\ sorted (by_proj Nat.ltb (fun x => x)) [1; 2; 2; 5] /\
  probe_exc Nat.ltb (fun x => x) (@heap_sorter (nat * nat) nat) 1 5 (map Val [9; 1; 2; 2; 5; 0]) = Ok 0 (map Val [9; 1; 2; 2; 5; 0]) /\
  probe_exc Nat.ltb (fun x => x) (@heap_sorter (nat * nat) nat) 1 5 (map Val [9; 1; 2; 5; 2; 0]) = Ok 1 (map Val [9; 1; 2; 5; 2; 0]).
Proof.
  split; [apply nat_ltb_swo|]. split; [intros c p Hc; now apply heap_sorts|]. split; [|split; vm_compute; reflexivity].
  intros [|[|[|[|i]]]] [|[|[|[|j]]]] x y L Hx Hy; simpl in Hx, Hy; rewrite ?nth_error_nil_none in *;
    inversion Hx; inversion Hy; subst; try lia; reflexivity.
Qed.
