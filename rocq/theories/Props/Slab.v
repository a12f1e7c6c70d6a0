(** C17: slab_sorter.  C62: stable_partition. *)
From Coq Require Import List Arith Permutation Lia Bool.
From Verif Require Import Spec.Order Lang.Mem Spec.Sorts Model.Rotate Model.Buffer Model.StablePartition Model.Slab Proofs.Examples Proofs.Wp Proofs.StablePartition Proofs.Slab.
Import ListNotations.

(** [cat]: the category of the iterators.  [triv]: whether the elements are trivially copyable.  [o]: which of the allocations of
    temporary memory succeed. *)
Theorem C17_slab_sorter_sorts :
  forall (A T : Type) (comp : T -> T -> bool) (proj : A -> T) (cat : category) (triv : bool) (o : oracle),
    strict_weak_order comp -> sorts (by_proj comp proj) (slab_sorter comp proj cat triv o).
Proof. intros A T comp proj cat triv o HW. now apply slabsort_sorts. Qed.
Print Assumptions C17_slab_sorter_sorts.

(** 66 elements whose encroaching lists are too many for one melsort, with all of the temporary memory and without any. *)
Example C17_case :
  strict_weak_order Nat.ltb /\
  (let xs := flat_map (fun i => [i; 65 - i]) (seq 0 33) in
   slab_sorter Nat.ltb (fun x => x) RandomAccess true (fun _ => true) 1 67 (map Val (99 :: xs ++ [50])) =
     Ok tt (map Val (99 :: seq 0 66 ++ [50])) /\
   slab_sorter Nat.ltb (fun x => x) Bidirectional false (fun _ => false) 1 67 (map Val (99 :: xs ++ [50])) =
     Ok tt (map Val (99 :: seq 0 66 ++ [50]))).
Proof. split; [apply nat_ltb_swo|split; vm_compute; reflexivity]. Qed.

Theorem C62_stable_partition :
  forall (A : Type) (pred : A -> bool) (cat : category) (triv : bool) (o : oracle) (pre : mem A) (xs : list A) (post : mem A),
    stable_partition cat triv pred o (length pre) (length pre + length xs) (length xs) (pre ++ map Val xs ++ post) =
      Ok (length pre + length (filter pred xs))
         (pre ++ map Val (filter pred xs ++ filter (fun x => negb (pred x)) xs) ++ post).
Proof.
  intros A pred cat triv o pre xs post.
  assert (H : wp (stable_partition cat triv pred o (length pre) (length pre + length xs) (length xs))
    (fun r m => r = length pre + length (filter pred xs) /\ m = pre ++ map Val (filter pred xs ++ filter (fun x => negb (pred x)) xs) ++ post)
    (pre ++ map Val xs ++ post)).
  { apply stable_partition_wp; auto. }
  apply wp_ok in H as (r & m & E & -> & ->). exact E.
Qed.
Print Assumptions C62_stable_partition.

(** The same range with all of the temporary memory it asks for, then with none. *)
Example C62_case :
  stable_partition Forward false Nat.even (fun _ => true) 1 9 8 (map Val (99 :: [1; 2; 3; 4; 5; 6; 8; 7] ++ [50])) =
    Ok 5 (map Val (99 :: [2; 4; 6; 8; 1; 3; 5; 7] ++ [50])) /\
  stable_partition Bidirectional true Nat.even (fun _ => false) 1 9 8 (map Val (99 :: [1; 2; 3; 4; 5; 6; 8; 7] ++ [50])) =
    Ok 5 (map Val (99 :: [2; 4; 6; 8; 1; 3; 5; 7] ++ [50])).
Proof. split; vm_compute; reflexivity. Qed.
