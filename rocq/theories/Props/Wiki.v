(** C23: wiki_sorter. *)
From Coq Require Import List Arith ZArith Permutation Lia Bool.
From Verif Require Import Spec.Order Lang.Mem Spec.Sorts Spec.Verge Model.Counting Model.Wiki Proofs.Examples Proofs.WikiSort Proofs.WikiLarge.
Import ListNotations.
Local Open Scope nat_scope.

(** The full claim would be [sorts_stably] for every size that fits in the difference type, without the conditions; both conditions are needed, as the
    next theorems show.  The first one is that the difference type is wide enough: the sizes below 2^35 for 64 bits, below 2^19 for 32 bits.  [trivial] is is_trivial<value_type>;
    [junk] are the values of the iterators that the program compares before it has assigned them. *)
Theorem C23_wiki_sorter_sorts_stably_partial :
  forall (A T : Type) (comp : T -> T -> bool) (proj : A -> T) (trivially_movable trivial : bool) (junk : nat -> nat * nat * nat * nat) (buffer_size : nat -> nat)
         (difference_type : int_type) (j : Z),
    strict_weak_order comp -> signed difference_type = true -> (3 <= j)%Z -> bits difference_type = (2 ^ j)%Z ->
    sorts_stably_when (fun xs => (Z.of_nat (length xs) < 2 ^ (bits difference_type / 2 + 3))%Z /\ (trivial = true \/ buffer_size (length xs) <= 4 \/ length xs < 15))
      (by_proj comp proj) (wiki_sorter comp proj trivially_movable trivial junk difference_type buffer_size).
Proof. intros A T comp proj triv trivial junk buffer_size dt j HC HS Hj HB. now apply (wiki_sorter_sorts comp proj triv trivial junk HC dt j). Qed.
Print Assumptions C23_wiki_sorter_sorts_stably_partial.

(** With elements whose destructor is not trivial, the elements of the buffer are destroyed by a merge, and again with the buffer.
    The instance is the default buffer, fixed_buffer<512>, with 32 elements. *)
Theorem C23_wiki_sorter_sorts_stably_refuted :
  ~ (forall (A T : Type) (comp : T -> T -> bool) (proj : A -> T) (trivially_movable trivial : bool) (junk : nat -> nat * nat * nat * nat) (buffer_size : nat -> nat),
       strict_weak_order comp -> sorts_stably (by_proj comp proj) (wiki_sorter comp proj trivially_movable trivial junk ptrdiff buffer_size)).
Proof.
  intros H. destruct (H nat nat Nat.ltb (fun x => x) false false (fun _ => (0, 0, 0, 0)) (fun _ => 512) nat_ltb_swo [] (map (fun x => x * 7 mod 32) (seq 0 32)) []) as (ys & E & _).
  vm_compute in E. discriminate.
Qed.
Print Assumptions C23_wiki_sorter_sorts_stably_refuted.

(** With a difference type of 16 bits or more, of any width that is a power of two, there is a size that fits in the type and a collection of this size on
    which the program reads past its end: hyperfloor does not return a power of two, and a merge takes four ranges where one remains.  The instance has
    2^19 + 4 equal integers for 32 bits, 2^35 + 4 for 64 bits, and the default buffer, fixed_buffer<512>. *)
Theorem C23_wiki_sorter_large_refuted :
  forall (difference_type : int_type) (j : Z), signed difference_type = true -> (4 <= j)%Z -> bits difference_type = (2 ^ j)%Z ->
    ~ (forall (A T : Type) (comp : T -> T -> bool) (proj : A -> T) (trivially_movable : bool) (junk : nat -> nat * nat * nat * nat) (buffer_size : nat -> nat),
         strict_weak_order comp ->
         sorts_stably_when (fun xs => fits difference_type (Z.of_nat (length xs)) = true)
           (by_proj comp proj) (wiki_sorter comp proj trivially_movable true junk difference_type buffer_size)).
Proof.
  intros dt j HS Hj HB H. destruct (H nat nat Nat.ltb (fun x => x) true (fun _ => (0, 0, 0, 0)) (fun _ => 512) nat_ltb_swo [] (repeat 0 (large dt)) []) as (ys & E & _).
  - rewrite repeat_length. now apply (large_fits dt j).
  - rewrite app_nil_r, !app_nil_l, repeat_length in E. simpl length in E. rewrite Nat.add_0_l in E.
    rewrite (wiki_sorter_large dt j) in E; auto; [discriminate|]. apply Nat.leb_le. reflexivity.
Qed.
Print Assumptions C23_wiki_sorter_large_refuted.

(** 20 elements with three keys and no cache, so that equivalent elements keep their order; 32 elements with half a buffer, and with a buffer too small to be used. *)
Example C23_case :
  strict_weak_order Nat.ltb /\
  wiki_sorter Nat.ltb (fun x => x mod 3) false false (fun _ => (9, 3, 7, 7)) ptrdiff (fun _ => 0) 1 21 (map Val (99 :: seq 0 20 ++ [50])) =
    Ok tt (map Val (99 :: ([0; 3; 6; 9; 12; 15; 18] ++ [1; 4; 7; 10; 13; 16; 19] ++ [2; 5; 8; 11; 14; 17]) ++ [50])) /\
  wiki_sorter Nat.ltb (fun x => x) true true (fun _ => (0, 0, 0, 0)) ptrdiff (fun n => n / 2 + 1) 1 33 (map Val (99 :: map (fun x => x * 7 mod 32) (seq 0 32) ++ [50])) =
    Ok tt (map Val (99 :: seq 0 32 ++ [50])) /\
  wiki_sorter Nat.ltb (fun x => x) false false (fun _ => (5, 0, 0, 5)) int32 (fun _ => 4) 1 33 (map Val (99 :: map (fun x => x * 7 mod 32) (seq 0 32) ++ [50])) =
    Ok tt (map Val (99 :: seq 0 32 ++ [50])).
Proof. split; [apply nat_ltb_swo|]. repeat split; vm_compute; reflexivity. Qed.
