(** C06: smooth_sorter; C57 for smooth_sorter. *)
From Coq Require Import List Arith Permutation Lia Bool NArith.
From Verif Require Import Spec.Order Lang.Mem Spec.Sorts Model.Smooth Proofs.OrderLib Proofs.Wp Proofs.Examples Proofs.Quick Proofs.Smooth Proofs.SmoothTable.
Import ListNotations.

Theorem C06_smooth_sorter_sorts :
  forall (A T : Type) (comp : T -> T -> bool) (proj : A -> T),
    strict_weak_order comp -> sorts (by_proj comp proj) (smooth_sorter comp proj).
Proof. intros. apply sorts_index_sorts; auto. apply smooth_sorter_wp. Qed.
Print Assumptions C06_smooth_sorter_sorts.

Definition C06_input : list nat := map (fun i => (i * 17) mod 41) (seq 1 40).
Example C06_case :
  strict_weak_order Nat.ltb /\
  smooth_sorter Nat.ltb (fun x => x) 1 41 (map Val (99 :: C06_input ++ [50])) = Ok tt (map Val (99 :: seq 1 40 ++ [50])).
Proof. split; [apply nat_ltb_swo|vm_compute; reflexivity]. Qed.

Theorem C57_smooth_sorter_permutes :
  forall (A T : Type) (comp : T -> T -> bool) (proj : A -> T), permutes (smooth_sorter comp proj).
Proof. intros. eapply sorts_index_permutes. apply smooth_sorter_wp. Qed.
Print Assumptions C57_smooth_sorter_permutes.

(** The shapes which smoothsort goes through for a range of [n] elements: [adding c] after the first [c] elements, [removing c] when [c]
    elements are left. *)
Inductive adding : nat -> shape -> Prop :=
| adding_none : adding 0 ([], 0)
| adding_one : forall c sh sh', adding c sh -> shape_add sh = Some sh' -> adding (S c) sh'.
Inductive removing (n : nat) : nat -> shape -> Prop :=
| removing_none : forall sh, adding n sh -> removing n n sh
| removing_one : forall c sh, removing n (S c) sh -> removing n c (shape_remove sh).

Lemma adding_chain : forall c sh, adding c sh -> wfs sh /\ chain 0 c (orders (fst sh) (snd sh)).
Proof.
  induction 1 as [|c sh sh' H [HW HC] E]. { split; [left; auto|reflexivity]. } eapply add_chain; eauto.
Qed.
Lemma removing_chain : forall n c sh, removing n c sh -> c <= n /\ headed sh /\ chain 0 c (orders (fst sh) (snd sh)).
Proof.
  induction 1 as [sh H|c sh H (Hc & HH & HC)].
  - apply adding_chain in H as [HW HC]. split; [lia|split; auto]. destruct HW as [->|(ts & E & _)]; [left; reflexivity|right; eauto].
  - destruct (remove_chain (S c) sh) as [H1 H2]; auto; try lia. replace (S c - 1) with c in H2 by lia. split; [lia|auto].
Qed.

(** The table holds the Leonardo numbers, no undefined shift occurs, and for a range of less than 2^64 elements the orders of the trees -
    the indices used to read the table, and the bits used in the bitset - are less than 92. *)
Theorem C06_leonardo_table_suffices :
  length leonardo_table = 92 /\
  (forall i, i < 92 -> nth_error leonardo_table i = Some (N.of_nat (leo i))) /\
  (forall c sh, adding c sh -> shape_add sh <> None) /\
  (forall n c sh, (N.of_nat n < 2 ^ 64)%N -> (adding c sh /\ c <= n) \/ removing n c sh ->
     forall i, bit i (fst sh) = true -> i < 92 /\ snd sh + i < 92).
Proof.
  split; [reflexivity|]. split; [apply leonardo_table_leo|]. split.
  - intros c sh H. apply adding_chain in H as [HW _]. destruct (shape_add_spec sh HW) as (ts1 & k1 & -> & _). discriminate.
  - intros n c sh Hn H i Hi. enough (snd sh + i < 92) by lia.
    assert (c <= n /\ chain 0 c (orders (fst sh) (snd sh))) as [Hc HC].
    { destruct H as [[H Hc]|H]; [apply adding_chain in H as [_ H]|apply removing_chain in H as (Hc & _ & H)]; auto. }
    apply leo_bound. pose proof (chain_order _ _ _ _ HC (bit_in_orders _ (snd sh) _ Hi)). lia.
Qed.
Print Assumptions C06_leonardo_table_suffices.

(** 12 elements: trees of 9, of 3 elements (orders 4 and 2); then 9 and two of 1. *)
Example C06_table_case : adding 12 ([true; false; true], 2) /\ removing 12 11 ([true; true; false; false; true], 0).
Proof.
  assert (adding 12 ([true; false; true], 2)) as H.
  { pose proof adding_none as H. do 12 (apply adding_one with (sh' := ltac:(let sh := match type of H with adding _ ?sh => sh end in
      let r := eval compute in (shape_add sh) in match r with Some ?x => exact x end)) in H; [|reflexivity]). exact H. }
  split; auto. apply (removing_one 12 11 ([true; false; true], 2)). constructor. exact H.
Qed.
