(** C08: quick_sorter; C10: pdq_sorter; C57 for quick_sorter. *)
From Coq Require Import List Arith Permutation Lia Bool.
From Verif Require Import Spec.Order Lang.Mem Spec.Sorts Model.Pdq Model.Quick Proofs.OrderLib Proofs.Wp Proofs.Examples Proofs.Pdq Proofs.Quick Props.Probes.
Import ListNotations.

(** ** C08 *)

(** [bidi]: bidirectional or random-access iterators, as opposed to forward iterators. *)
Theorem C08_quick_sorter_sorts :
  forall (A T : Type) (comp : T -> T -> bool) (proj : A -> T) (bidi : bool),
    strict_weak_order comp -> sorts (by_proj comp proj) (quick_sorter comp proj bidi).
Proof. intros. now apply quick_sorts. Qed.
Print Assumptions C08_quick_sorter_sorts.

(** Whatever number of bad pivots is tolerated before every pivot is a median of medians. *)
Theorem C08_quicksort_sorts_with_every_fallback :
  forall (A T : Type) (comp : T -> T -> bool) (proj : A -> T) (bidi : bool) (bad_allowed : nat),
    strict_weak_order comp ->
    sorts (by_proj comp proj) (fun first last =>
      quicksort_loop comp proj bidi (S (last - first)) first last (last - first) bad_allowed).
Proof.
  intros A T comp proj bidi bad HC. apply sorts_intro. intros f l m Hfl Hf.
  eapply wp_mono; [apply quicksort_loop_wp; auto|]. intros u m' [HP HS]. split; auto. apply HS. now apply swo_by_proj.
Qed.
Print Assumptions C08_quicksort_sorts_with_every_fallback.

Definition C08_input : list nat :=
  [17; 3; 29; 8; 21; 8; 14; 0; 25; 11; 6; 19; 2; 27; 10; 23; 5; 16; 1; 28; 12; 7; 20; 4; 26; 13; 9; 24; 15; 18; 30; 45;
   31; 44; 32; 43; 33; 42; 34; 41; 35; 40; 36; 39].
Definition C08_output : list nat :=
  [0; 1; 2; 3; 4; 5; 6; 7; 8; 8; 9; 10; 11; 12; 13; 14; 15; 16; 17; 18; 19; 20; 21; 23; 24; 25; 26; 27; 28; 29; 30; 31;
   32; 33; 34; 35; 36; 39; 40; 41; 42; 43; 44; 45].
Example C08_case :
  strict_weak_order Nat.ltb /\
  quick_sorter Nat.ltb (fun x => x) true 1 45 (map Val (99 :: C08_input ++ [50])) = Ok tt (map Val (99 :: C08_output ++ [50])) /\
  quick_sorter Nat.ltb (fun x => x) false 1 45 (map Val (99 :: C08_input ++ [50])) = Ok tt (map Val (99 :: C08_output ++ [50])) /\
  quicksort_loop Nat.ltb (fun x => x) false 45 1 45 44 0 (map Val (99 :: C08_input ++ [50])) =
    Ok tt (map Val (99 :: C08_output ++ [50])).
Proof. split; [apply nat_ltb_swo|]. repeat split; vm_compute; reflexivity. Qed.

(** ** C57 *)

Theorem C57_quick_sorter_permutes :
  forall (A T : Type) (comp : T -> T -> bool) (proj : A -> T) (bidi : bool), permutes (quick_sorter comp proj bidi).
Proof. intros. apply quick_permutes. Qed.
Print Assumptions C57_quick_sorter_permutes.

(** ** C10 *)

(** [branchless]: which of the two partition functions the element type and the comparison select. The boolean [true]
    is the rule that a moved-from object may be move-assigned to itself, see the refutation below. *)
Theorem C10_pdq_sorter_sorts :
  forall (A T : Type) (comp : T -> T -> bool) (proj : A -> T) (branchless : bool),
    strict_weak_order comp -> sorts (by_proj comp proj) (pdq_sorter comp proj true branchless).
Proof. intros. now apply pdq_sorts. Qed.
Print Assumptions C10_pdq_sorter_sorts.

(** 30 elements between two others: the partition, its recursive calls and the insertion sorts run. *)
Definition C10_input : list nat :=
  [17; 3; 29; 8; 21; 8; 14; 0; 25; 11; 6; 19; 2; 27; 10; 23; 5; 16; 1; 28; 12; 7; 20; 4; 26; 13; 9; 24; 15; 18].
Example C10_case :
  strict_weak_order Nat.ltb /\
  pdq_sorter Nat.ltb (fun x => x) true true 1 31 (map Val (99 :: C10_input ++ [50])) =
    Ok tt (map Val [99; 0; 1; 2; 3; 4; 5; 6; 7; 8; 8; 9; 10; 11; 12; 13; 14; 15; 16; 17; 18; 19; 20; 21; 23; 24; 25; 26;
      27; 28; 29; 50]) /\
  pdq_sorter Nat.ltb (fun x => x) true false 1 31 (map Val (99 :: C10_input ++ [50])) =
    pdq_sorter Nat.ltb (fun x => x) true true 1 31 (map Val (99 :: C10_input ++ [50])).
Proof. split; [apply nat_ltb_swo|split; vm_compute; reflexivity]. Qed.

(** docs/Home.md:28 promises that no algorithm of the library move-assigns an object to itself; with a memory where
    that is undefined, sorting 24 equivalent elements is undefined: the pivot's cell, already moved from, is assigned
    to itself (detail/pdqsort.h:331 and 383). *)
Theorem C10_pdq_sorter_never_self_moves_refuted :
  exists xs : list nat, length xs = 24 /\ strict_weak_order Nat.ltb /\
    forall branchless, pdq_sorter Nat.ltb (fun x => x) false branchless 0 24 (map Val xs) = UB.
Proof.
  exists (repeat 7 24). split; [reflexivity|]. split; [apply nat_ltb_swo|]. intros [|]; vm_compute; reflexivity.
Qed.
Print Assumptions C10_pdq_sorter_never_self_moves_refuted.

(** What C35 to C42 ask of the function which sorts their vector of iterators: pdqsort meets it. *)
Theorem C10_pdq_sorter_serves_the_probes :
  forall (A T : Type) (branchless : bool),
    inner_sorts (A := A) (T := T) (fun c p => pdq_sorter c p true branchless).
Proof. intros A T branchless c p HC. now apply pdq_sorts. Qed.
Print Assumptions C10_pdq_sorter_serves_the_probes.
