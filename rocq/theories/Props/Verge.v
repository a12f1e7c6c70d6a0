(** C13: verge_adapter and verge_sorter; C57 for it. *)
From Coq Require Import List Arith Permutation Lia Bool.
From Verif Require Import Spec.Order Spec.Verge Lang.Mem Spec.Sorts Model.Rotate Model.Buffer Model.Adapters Model.Pdq Model.Verge
  Proofs.OrderLib Proofs.Wp Proofs.Examples Proofs.Indirect Proofs.Pdq Proofs.QuickMerge Proofs.Adapters Proofs.Stable Proofs.Verge Proofs.VergeSort Proofs.VergeCase.
Import ListNotations.

(** The full statement is [sorts (by_proj comp proj) (verge_adapter ...)]; it does not hold (C13_verge_sorter_sorts_refuted).  Missing:
    collections of at least 128 elements where an element stands alone between two long runs. *)
Theorem C13_verge_adapter_sorts_partial :
  forall (A T : Type) (comp : T -> T -> bool) (proj : A -> T) (cat : Rotate.category) (triv : bool) (o : oracle) (inner : range_prog A),
    strict_weak_order comp -> cat <> Rotate.Forward -> sorts (by_proj comp proj) inner ->
    sorts_when (fun xs => ~ (128 <= length xs /\ has_isolated_element (by_proj comp proj) (length xs / Nat.log2 (length xs)) xs))
      (by_proj comp proj) (verge_adapter comp proj cat triv o false inner).
Proof.
  intros A T comp proj cat triv o inner HC Hcat HI pre xs post HT.
  destruct (verge_adapter_runs comp proj cat triv o false inner Hcat True pre xs post) as (ys & E & HS & HR); auto.
  - intros _. now apply swo_by_proj.
  - intros p l q. destruct (HI p l q) as (r & E & HP & HS). exists r. split; auto. split; [split|]; auto. intros [_ ?]. discriminate.
  - exists ys. split; auto. split; [apply HS|auto].
Qed.
Print Assumptions C13_verge_adapter_sorts_partial.

Theorem C13_stable_verge_adapter_sorts_stably_partial :
  forall (A T : Type) (comp : T -> T -> bool) (proj : A -> T) (cat : Rotate.category) (triv : bool) (o : oracle) (inner : range_prog A),
    strict_weak_order comp -> cat <> Rotate.Forward -> sorts_stably (by_proj comp proj) inner ->
    sorts_stably_when (fun xs => ~ (128 <= length xs /\ has_isolated_element (by_proj comp proj) (length xs / Nat.log2 (length xs)) xs))
      (by_proj comp proj) (verge_adapter comp proj cat triv o true inner).
Proof.
  intros A T comp proj cat triv o inner HC Hcat HI pre xs post HT.
  destruct (verge_adapter_runs comp proj cat triv o true inner Hcat True pre xs post) as (ys & E & HS & HR); auto.
  - intros _. now apply swo_by_proj.
  - intros p l q. destruct (HI p l q) as (r & E & HP & HS & HB). exists r. split; auto. split; [split|]; auto.
  - exists ys. split; auto. destruct HS as [H1 H2]. split; [auto|split]; auto. apply H2. split; auto.
Qed.
Print Assumptions C13_stable_verge_adapter_sorts_stably_partial.

Theorem C13_verge_sorter_sorts_partial :
  forall (A T : Type) (comp : T -> T -> bool) (proj : A -> T) (cat : Rotate.category) (triv : bool) (o : oracle) (branchless : bool),
    strict_weak_order comp -> cat <> Rotate.Forward ->
    sorts_when (fun xs => ~ (128 <= length xs /\ has_isolated_element (by_proj comp proj) (length xs / Nat.log2 (length xs)) xs))
      (by_proj comp proj) (verge_sorter comp proj cat triv o true branchless).
Proof.
  intros A T comp proj cat triv o br HC Hcat. apply C13_verge_adapter_sorts_partial; auto. destruct cat; simpl; [now apply quick_merge_sorts..|now apply pdq_sorts].
Qed.
Print Assumptions C13_verge_sorter_sorts_partial.

Theorem C13_stable_verge_sorter_sorts_stably_partial :
  forall (A T : Type) (comp : T -> T -> bool) (proj : A -> T) (cat : Rotate.category) (triv : bool) (o : oracle) (branchless : bool),
    strict_weak_order comp -> cat <> Rotate.Forward ->
    sorts_stably_when (fun xs => ~ (128 <= length xs /\ has_isolated_element (by_proj comp proj) (length xs / Nat.log2 (length xs)) xs))
      (by_proj comp proj) (stable_verge_sorter comp proj cat triv o true branchless).
Proof.
  intros A T comp proj cat triv o br HC Hcat. apply C13_stable_verge_adapter_sorts_stably_partial; auto. apply make_stable_sorts; auto. intros c Hc.
  assert (Hc' : strict_weak_order (by_proj c (fun x : A * nat => x))) by now apply swo_by_proj.
  destruct cat; [apply (quick_merge_sorts _ _ c (fun x => x)); auto..|apply (pdq_sorts c (fun x => x)); auto].
Qed.
Print Assumptions C13_stable_verge_sorter_sorts_stably_partial.

(** 30 ascending elements, 30 more from a lesser one on, then one lesser than all of them, then 67 from a yet lesser one on.  The element
    that is alone is rotated to the beginning of the wrong run (detail/vergesort.h:70): the result is not sorted. *)
Definition C13_trap : list nat := seq 5 30 ++ seq 4 30 ++ [3] ++ seq 1 67.
Theorem C13_verge_sorter_sorts_refuted : forall cat, cat <> Rotate.Forward ->
  ~ sorts Nat.ltb (verge_sorter Nat.ltb (fun x => x) cat true (fun _ => true) true false) /\
  ~ sorts_stably Nat.ltb (stable_verge_sorter Nat.ltb (fun x => x) cat true (fun _ => true) true false).
Proof.
  assert (H : forall prog : range_prog nat, not_sorted_by Nat.ltb prog C13_trap = true -> ~ sorts Nat.ltb prog /\ ~ sorts_stably Nat.ltb prog).
  { intros prog H. split; intros HS; (eapply not_sorted_by_sound; [exact H|]); intros pre xs post; destruct (HS pre xs post) as (ys & E & HP & HR); exists ys; split; auto; tauto. }
  intros [| |] Hcat; [congruence| |]; (split; [apply (H (verge_sorter _ _ _ _ _ _ _))|apply (H (stable_verge_sorter _ _ _ _ _ _ _))]; vm_compute; reflexivity).
Qed.
Print Assumptions C13_verge_sorter_sorts_refuted.

(** Every comparison function, for random-access iterators. *)
Theorem C57_verge_adapter_permutes :
  forall (A T : Type) (comp : T -> T -> bool) (proj : A -> T) (triv : bool) (o : oracle) (stable : bool) (inner : range_prog A),
    permutes inner -> permutes (verge_adapter comp proj Rotate.RandomAccess triv o stable inner).
Proof.
  intros A T comp proj triv o stable inner HI pre xs post.
  destruct (verge_adapter_runs comp proj Rotate.RandomAccess triv o stable inner ltac:(discriminate) False pre xs post) as (ys & E & HS & HR); auto; try tauto.
  - intros p l q. destruct (HI p l q) as (r & E & HP). exists r. split; auto. split; [split|]; auto; intros []; contradiction.
  - exists ys. split; auto. apply HS.
Qed.
Print Assumptions C57_verge_adapter_permutes.

(** 150 pairs compared by their first component: an ascending run, a descending one and an ascending one. *)
Definition C13_keys : list nat := seq 6 40 ++ rev (seq 2 50) ++ seq 1 60.
Definition C13_input : list (nat * nat) := combine C13_keys (seq 0 150).
Definition C13_output : list (nat * nat) := flat_map (fun k => filter (fun p => fst p =? k) C13_input) (seq 0 61).
Example C13_case :
  strict_weak_order Nat.ltb /\
  (128 <= length C13_input /\ ~ has_isolated_element (by_proj Nat.ltb fst) (length C13_input / Nat.log2 (length C13_input)) C13_input) /\
  stable_verge_sorter Nat.ltb fst Rotate.RandomAccess true (fun _ => true) true false 1 151 (map Val ((9, 9) :: C13_input ++ [(7, 7)]))
    = Ok tt (map Val ((9, 9) :: C13_output ++ [(7, 7)])) /\
  stable_verge_sorter Nat.ltb fst Rotate.Bidirectional true (fun _ => false) true false 1 151 (map Val ((9, 9) :: C13_input ++ [(7, 7)]))
    = Ok tt (map Val ((9, 9) :: C13_output ++ [(7, 7)])).
Proof.
  split; [apply nat_ltb_swo|]. split; [split|split].
  - apply Nat.leb_le. vm_compute. reflexivity.
  - apply not_isolated; [apply Nat.ltb_lt|]; vm_compute; reflexivity.
  - vm_compute. reflexivity.
  - vm_compute. reflexivity.
Qed.
Example C57_verge_case :
  permutes (verge_adapter bad_comp (fun x : nat => x) Rotate.RandomAccess true (fun _ => true) true (fun _ _ => ret tt)) /\
  exists ys, verge_adapter bad_comp (fun x : nat => x) Rotate.RandomAccess true (fun _ => true) true (fun _ _ => ret tt) 0 130 (map Val (seq 0 130)) = Ok tt (map Val ys) /\
    ys <> seq 0 130.
Proof.
  split.
  - apply C57_verge_adapter_permutes. intros pre xs post. exists xs. split; auto.
  - exists (rev (seq 0 130)). split; [vm_compute; reflexivity|discriminate].
Qed.
