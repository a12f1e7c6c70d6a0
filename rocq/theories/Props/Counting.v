(** C24: counting_sorter. *)
From Coq Require Import List Arith Permutation Lia Bool ZArith.
From Verif Require Import Spec.Order Lang.Mem Spec.Sorts Model.Counting Proofs.Counting.
Import ListNotations.
Local Open Scope Z_scope.

(** The full claim has no hypothesis on the values but that they belong to the type.  It is refuted below for the values next to the end of
    the type, and fails by overflow of max - min when the values are further apart than the type can express.
    Missing here: types of 32 bits or more whose range of values is as wide as the type, or (signed types) that contain the last value of
    the type in the direction of the sort. *)
Theorem C24_counting_sorter_sorts_partial :
  forall (t : int_type) (greater : bool) (pre : mem Z) (xs : list Z) (post : mem Z),
    bits t = 8 \/ bits t = 16 \/ bits t = 32 \/ bits t = 64 \/ bits t = 128 ->
    (forall x, In x xs -> type_min t <= x <= type_max t) ->
    (32 <= bits t -> forall x y, In x xs -> In y xs -> y - x < Z.min (type_max t) (2 ^ 63 - 1)) ->
    (32 <= bits t -> signed t = true -> forall x, In x xs -> x <> if greater then type_min t else type_max t) ->
    exists ys,
      counting_sorter t greater (length pre) (length pre + length xs)%nat (pre ++ map Val xs ++ post) = Ok tt (pre ++ map Val ys ++ post) /\
      is_sorting_of (if greater then Z.gtb else Z.ltb) xs ys.
Proof. intros t greater pre xs post HT H1 H2 H3. apply counting_sorter_sorts; [exact HT|]. split; [exact H1|]. split; [exact H2|exact H3]. Qed.
Print Assumptions C24_counting_sorter_sorts_partial.

Definition C24_input : list Z := [5; 3; -2; 5; 7; 5; 3; -4; 0].
Example C24_case :
  (forall x, In x C24_input -> type_min int32 <= x <= type_max int32) /\
  (forall x y, In x C24_input -> In y C24_input -> y - x < Z.min (type_max int32) (2 ^ 63 - 1)) /\
  (forall x, In x C24_input -> x <> type_max int32) /\ (forall x, In x C24_input -> x <> type_min int32) /\
  counting_sorter int32 false 1%nat 10%nat (map Val (9 :: C24_input ++ [-1])) = Ok tt (map Val (9 :: [-4; -2; 0; 3; 3; 5; 5; 5; 7] ++ [-1])) /\
  counting_sorter int32 true 1%nat 10%nat (map Val (9 :: C24_input ++ [-1])) = Ok tt (map Val (9 :: [7; 5; 5; 5; 3; 3; 0; -2; -4] ++ [-1])).
Proof.
  assert (forall x, In x C24_input -> -4 <= x <= 7) as H. { intros x Hx. repeat (destruct Hx as [<-|Hx]; [lia|]). destruct Hx. }
  assert (type_min int32 = -2147483648 /\ type_max int32 = 2147483647 /\ 2 ^ 63 - 1 = 9223372036854775807) as (-> & -> & ->) by (repeat split).
  split; [intros x Hx; specialize (H x Hx); lia|]. split; [intros x y Hx Hy; apply H in Hx, Hy; lia|].
  split; [intros x Hx; specialize (H x Hx); lia|]. split; [intros x Hx; specialize (H x Hx); lia|]. split; vm_compute; reflexivity.
Qed.

(** A type of 8 bits: every value, including the last one, which is incremented in int. *)
Example C24_char_case :
  counting_sorter {| bits := 8; signed := true |} false 0%nat 4%nat (map Val [127; -128; 126; 127]) = Ok tt (map Val [-128; 126; 127; 127]).
Proof. vm_compute. reflexivity. Qed.

(** detail/counting_sort.h:45 evaluates min++ once more than needed: with the greatest int in the range it overflows.
    Likewise max-- (line 73) with the smallest int, and the difference max - min (lines 32 and 59). *)
Theorem C24_counting_sorter_every_value_refuted :
  ~ (forall (t : int_type) (greater : bool) (pre : mem Z) (xs : list Z) (post : mem Z),
      bits t = 8 \/ bits t = 16 \/ bits t = 32 \/ bits t = 64 \/ bits t = 128 ->
      (forall x, In x xs -> type_min t <= x <= type_max t) ->
      exists ys,
        counting_sorter t greater (length pre) (length pre + length xs)%nat (pre ++ map Val xs ++ post) = Ok tt (pre ++ map Val ys ++ post) /\
        is_sorting_of (if greater then Z.gtb else Z.ltb) xs ys).
Proof.
  intros H. destruct (H int32 false [] [2147483647; 2147483646] []) as (ys & E & _).
  - simpl. lia.
  - change (type_min int32) with (-2147483648). change (type_max int32) with 2147483647. simpl. lia.
  - vm_compute in E. discriminate.
Qed.
Print Assumptions C24_counting_sorter_every_value_refuted.

(** The other two overflows. *)
Example C24_overflows :
  counting_sorter int32 true 0%nat 2%nat (map Val [-2147483648; -2147483647]) = UB /\
  counting_sorter int32 false 0%nat 2%nat (map Val [1; -2147483648]) = UB.
Proof. split; vm_compute; reflexivity. Qed.
