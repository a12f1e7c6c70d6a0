(** C82: default_sorter and its specialization of stable_adapter. *)
From Coq Require Import List Arith Bool Lia.
From Verif Require Import Spec.Order Lang.Mem Spec.Sorts Spec.Default Model.Rotate Model.Buffer Model.Merge Model.Fixed Model.Quick Model.Pdq Model.Default
  Proofs.Default Proofs.MergeProps Proofs.Examples Props.Merge.
From Verif Require Import Model.Facade.
Import ListNotations.

(** [member]: the member function sort of the list ([list.ops]).  The array accesses of pdq_sorter may move-assign to itself a moved-from object, as in C10.
    Missing: the lists with a projection alone, see below. *)
Theorem C82_default_sorter_sorts_partial :
  forall (A T : Type) (comp : T -> T -> bool) (proj : A -> T) (branchless : bool) (member : range_prog A),
    strict_weak_order comp -> sorts_stably (by_proj comp proj) member ->
    forall (o : object) (args : list fn), proper_call args -> ~ (is_list o /\ lone_projection args) ->
      exists p, default_sorter comp proj true branchless member o args = Program p /\ sorts_object o (by_proj comp proj) p.
Proof.
  intros A T comp proj branchless member HC HM o args HA HN. rewrite default_eq by auto.
  assert (HM' : sorts (by_proj comp proj) member).
  { intros pre xs post. destruct (HM pre xs post) as (ys & E & HP & HS & _). exists ys. split; [auto|now split]. }
  pose proof (adapted_sorts comp proj branchless o HC) as HS.
  assert (HL : forall f, is_list o -> args = [f] -> is_comparison f = true).
  { intros f HO HE. subst args. destruct HA as [|HA]; auto. exfalso. apply HN. split; auto. now exists f. }
  destruct o as [| |n|it|it].
  - destruct args as [|f [|g l]]; [| |eauto]; [|rewrite (HL f); auto; [|now left]]; exists member; auto.
  - destruct args as [|f [|g l]]; [| |eauto]; [|rewrite (HL f); auto; [|now right]]; exists member; auto.
  - eauto.
  - eauto.
  - eauto.
Qed.
Print Assumptions C82_default_sorter_sorts_partial.

(** A list and a projection alone: the member function sort is taken to accept the projection. *)
Theorem C82_default_sorter_list_projection_refuted :
  forall (A T : Type) (comp : T -> T -> bool) (proj : A -> T) (lenient branchless : bool) (member : range_prog A) (o : object),
    is_list o -> proper_call [Prj] /\ default_sorter comp proj lenient branchless member o [Prj] = DoesNotCompile.
Proof. intros A T comp proj lenient branchless member o [->| ->]; split; try reflexivity; right; reflexivity. Qed.
Print Assumptions C82_default_sorter_list_projection_refuted.

(** Which algorithm runs; no other call compiles. *)
Theorem C82_default_sorter_selects :
  forall (A T : Type) (comp : T -> T -> bool) (proj : A -> T) (lenient branchless : bool) (member : range_prog A) (o : object) (args : list fn),
    let call := default_sorter comp proj lenient branchless member o args in
    (proper_call args ->
       (is_list o -> length args <= 1 -> ~ lone_projection args -> call = Program member) /\
       (o = StdList -> length args = 2 -> call = Program (quick_sorter comp proj true)) /\
       (o = StdForwardList -> length args = 2 -> call = Program (quick_sorter comp proj false)) /\
       (forall n, o = Array n -> n <= 13 -> call = Program (low_comparisons_sorter comp proj n)) /\
       (forall n, o = Array n -> 13 < n -> call = Program (pdq_sorter comp proj lenient branchless)) /\
       (o = Collection Forward \/ o = PairOf Forward -> call = Program (quick_sorter comp proj false)) /\
       (o = Collection Bidirectional \/ o = PairOf Bidirectional -> call = Program (quick_sorter comp proj true)) /\
       (o = Collection RandomAccess \/ o = PairOf RandomAccess -> call = Program (pdq_sorter comp proj lenient branchless))) /\
    (~ proper_call args -> call = DoesNotCompile).
Proof.
  intros A T comp proj lenient branchless member o args call. split; [|intros HA; now apply improper].
  intros HA. unfold call. rewrite default_eq by auto. repeat split.
  - intros HO HL HP. destruct args as [|f [|g l]]; [| |simpl in HL; lia].
    + destruct HO as [->| ->]; reflexivity.
    + assert (HF : is_comparison f = true) by (destruct HA as [|HA]; auto; exfalso; apply HP; now exists f).
      rewrite HF. destruct HO as [->| ->]; reflexivity.
  - intros -> HL. destruct args as [|f [|g [|h l]]]; try discriminate. reflexivity.
  - intros -> HL. destruct args as [|f [|g [|h l]]]; try discriminate. reflexivity.
  - intros n -> HN. unfold adapted. apply Nat.leb_le in HN. now rewrite HN.
  - intros n -> HN. unfold adapted. apply Nat.leb_gt in HN. now rewrite HN.
  - intros [->| ->]; reflexivity.
  - intros [->| ->]; reflexivity.
  - intros [->| ->]; reflexivity.
Qed.
Print Assumptions C82_default_sorter_selects.

(** Whatever the comparison, but for pdq_sorter (see C57). *)
Theorem C82_default_sorter_permutes_partial :
  forall (A T : Type) (comp : T -> T -> bool) (proj : A -> T) (lenient branchless : bool) (member : range_prog A) (o : object) (args : list fn),
    proper_call args -> (is_list o -> length args = 2) ->
    match o with Array n => n <= 13 | Collection it | PairOf it => it <> RandomAccess | _ => True end ->
    exists p, default_sorter comp proj lenient branchless member o args = Program p /\ permutes_object o p.
Proof.
  intros A T comp proj lenient branchless member o args HA HL HO. rewrite default_eq by auto.
  assert (HP : permutes_object o (adapted comp proj lenient branchless o)).
  { apply adapted_permutes. destruct o; auto; discriminate. }
  exists (adapted comp proj lenient branchless o). split; [|auto].
  destruct o as [| |n|it|it]; try reflexivity.
  - destruct args as [|f [|g l]]; [specialize (HL (or_introl eq_refl))|specialize (HL (or_introl eq_refl))|]; try discriminate; reflexivity.
  - destruct args as [|f [|g l]]; [specialize (HL (or_intror eq_refl))|specialize (HL (or_intror eq_refl))|]; try discriminate; reflexivity.
Qed.
Print Assumptions C82_default_sorter_permutes_partial.

(** Missing: forward iterators when only some of the allocations succeed (refuted in C07). *)
Theorem C82_stable_default_sorter_partial :
  forall (A T : Type) (comp : T -> T -> bool) (proj : A -> T) (triv : bool) (alloc : oracle) (o : object) (args : list fn),
    strict_weak_order comp -> proper_call args ->
    iterators o <> Forward \/ (forall p, alloc p = true) \/ (forall p, alloc p = false) ->
    exists p, stable_default_sorter comp proj triv alloc o args = Program p /\ sorts_stably (by_proj comp proj) p.
Proof.
  intros A T comp proj triv alloc o args HC HA HM. unfold stable_default_sorter. apply (accepts_proper Iterable) in HA. rewrite HA.
  eexists. split; [reflexivity|]. destruct (iterators o).
  - destruct HM as [HM|HM]; [now destruct HM|]. now apply C07_merge_sorter_forward_sorts_stably_partial.
  - apply C07_merge_sorter_sorts_stably; auto.
  - apply C07_merge_sorter_sorts_stably; auto.
Qed.
Print Assumptions C82_stable_default_sorter_partial.

Example C82_case :
  proper_call [Cmp; Prj] /\ ~ (is_list (Array 9) /\ lone_projection [Cmp; Prj]) /\ strict_weak_order Nat.ltb /\
  match default_sorter Nat.ltb (fun x : nat => x) true false (fun _ _ => ub) (Array 9) [Cmp; Prj] with
  | Program p => p 1 10 (map Val [9; 4; 2; 5; 2; 1; 7; 8; 3; 6; 0]) = Ok tt (map Val [9; 1; 2; 2; 3; 4; 5; 6; 7; 8; 0])
  | DoesNotCompile => False
  end /\
  match default_sorter Nat.ltb (fun x : nat => x) true false (fun _ _ => ub) StdForwardList [Cmp; Prj] with
  | Program p => p 1 6 (map Val [9; 4; 2; 5; 2; 1; 7]) = Ok tt (map Val [9; 1; 2; 2; 4; 5; 7])
  | DoesNotCompile => False
  end /\
  match stable_default_sorter Nat.ltb (@fst nat nat) true (fun _ => false) (Array 4) [Prj] with
  | Program p => p 0 4 (map Val [(2, 0); (1, 1); (2, 2); (1, 3)]) = Ok tt (map Val [(1, 1); (1, 3); (2, 0); (2, 2)])
  | DoesNotCompile => False
  end.
Proof.
  split; [split; reflexivity|]. split; [intros [[H|H] _]; discriminate H|]. split; [apply nat_ltb_swo|]. repeat split; vm_compute; reflexivity.
Qed.
