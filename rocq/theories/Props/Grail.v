(** C22: grail_sorter. *)
From Coq Require Import List Arith Permutation Lia Bool ZArith.
From Verif Require Import Spec.Order Lang.Mem Spec.Sorts Spec.Verge Model.Grail Proofs.Examples Proofs.OrderLib Proofs.Wp Proofs.GrailSort Proofs.GrailLarge.
Import ListNotations.

(** The full claim would be [sorts_stably] for every collection and every buffer; the two theorems after this one show why it is false. *)
Theorem C22_grail_sorter_sorts_stably_partial :
  forall (A T : Type) (comp : T -> T -> bool) (proj : A -> T) (trivially_swappable : bool) (buffer_size : nat -> nat), strict_weak_order comp ->
    sorts_stably_when
      (fun xs =>
         ((Z.of_nat (length xs) < 2 ^ 31)%Z \/
          exists a b c d, In a xs /\ In b xs /\ In c xs /\ In d xs /\ by_proj comp proj a b = true /\ by_proj comp proj b c = true /\ by_proj comp proj c d = true) /\
         (Z.of_nat (buffer_size (length xs)) < 2 ^ 31)%Z /\ (buffer_size (length xs) = 1 -> length xs < 16))
      (by_proj comp proj) (grail_sorter comp proj trivially_swappable buffer_size).
Proof. intros A T comp proj triv buffer_size HC. apply grail_sorter_sorts. now apply swo_by_proj. Qed.
Print Assumptions C22_grail_sorter_sorts_stably_partial.

(** With a buffer of one element, an element of the collection is overwritten. *)
Theorem C22_grail_sorter_buffer_of_one_refuted :
  ~ (forall (A T : Type) (comp : T -> T -> bool) (proj : A -> T) (trivially_swappable : bool), strict_weak_order comp ->
       sorts_stably_when (fun xs => length xs <= 40) (by_proj comp proj) (grail_sorter comp proj trivially_swappable (fun _ => 1))).
Proof.
  intros H. destruct (H nat nat Nat.ltb (fun x => x) false nat_ltb_swo [] (seq 0 16) []) as (ys & E & HP & _). { simpl. lia. }
  vm_compute in E. discriminate.
Qed.
Print Assumptions C22_grail_sorter_buffer_of_one_refuted.

(** With more than 2^31 elements and fewer than four distinct keys, the last merge is skipped, whatever the buffer. *)
Theorem C22_grail_sorter_large_refuted :
  forall (trivially_swappable : bool) (buffer_size : nat -> nat),
  ~ sorts_stably_when (fun xs => (Z.of_nat (length xs) = 2 ^ 31 + 1)%Z /\ forall x, In x xs -> x <= 1)
      (by_proj Nat.ltb (fun x => x)) (grail_sorter Nat.ltb (fun x => x) trivially_swappable buffer_size).
Proof.
  intros triv buffer_size H. destruct (Z_of_nat_complete (2 ^ 31 - 1)) as (a & Ha); [lia|]. symmetry in Ha.
  pose proof (grail_large_wp a triv buffer_size Ha) as HW. destruct (H [] (repeat 1 a ++ [0; 0]) []) as (ys & E & HP & HS & _).
  { split.
    - rewrite app_length, repeat_length. change (length [0; 0]) with 2. lia.
    - intros x Hx. apply in_app_iff in Hx as [Hx|[<-|[<-|[]]]]; auto. apply repeat_spec in Hx. lia. }
  rewrite !app_nil_r in E. unfold wp in HW. cbn [app length Nat.add] in E. rewrite E in HW. destruct HW as (l & EL & HN). apply HN.
  replace l with ys; auto. clear - EL. revert l EL. induction ys as [|y ys IH]; intros [|z l] E; try discriminate; auto. injection E as -> E. f_equal; auto.
Qed.
Print Assumptions C22_grail_sorter_large_refuted.

(** Without a buffer, and with buffers smaller and larger than the blocks: 20 elements with few keys, and 24 elements in descending order. *)
Example C22_case :
  strict_weak_order Nat.ltb /\
  grail_sorter Nat.ltb (fun x => x mod 3) false (fun _ => 0) 1 21 (map Val (99 :: seq 0 20 ++ [50])) =
    Ok tt (map Val (99 :: ([0; 3; 6; 9; 12; 15; 18] ++ [1; 4; 7; 10; 13; 16; 19] ++ [2; 5; 8; 11; 14; 17]) ++ [50])) /\
  grail_sorter Nat.ltb (fun x => x) true (fun _ => 2) 1 25 (map Val (99 :: rev (seq 0 24) ++ [50])) = Ok tt (map Val (99 :: seq 0 24 ++ [50])) /\
  grail_sorter Nat.ltb (fun x => x) true (fun _ => 9) 1 25 (map Val (99 :: rev (seq 0 24) ++ [50])) = Ok tt (map Val (99 :: seq 0 24 ++ [50])).
Proof. split; [apply nat_ltb_swo|]. repeat split; vm_compute; reflexivity. Qed.

(** The second way to meet the hypothesis: a collection of any size that has four distinct keys. *)
Example C22_case_keys : forall n : nat,
  let xs := [3; 2; 1; 0] ++ repeat 0 n in
  exists a b c d, In a xs /\ In b xs /\ In c xs /\ In d xs /\ Nat.ltb a b = true /\ Nat.ltb b c = true /\ Nat.ltb c d = true.
Proof. intros n xs. exists 0, 1, 2, 3. unfold xs. simpl. tauto. Qed.
