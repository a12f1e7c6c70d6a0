(** C71. *)
From Coq Require Import List Arith ZArith Bool Lia Permutation.
From Verif Require Import Spec.Order Spec.Sorts Spec.Approx Lang.Mem Model.Comparators Model.Counting Model.Ieee Model.Networks Model.SwapIf
  Proofs.Ieee Proofs.SwapIf.
Import ListNotations.

(** The overloads for the integer types of every width, signed or not, do what the generic swap_if does. *)
Theorem C71_swap_if_integers :
  forall (t : int_type) (x y : Z), (1 <= bits t)%Z -> fits t x = true -> fits t y = true ->
    int_swap_if t false x y = swap_if Z.ltb (fun z => z) x y /\
    int_swap_if t true x y = swap_if Z.gtb (fun z => z) x y.
Proof.
  intros t x y HB HX HY. split; [exact (int_swap_if_ok t x y false HB HX HY)|]. rewrite (int_swap_if_ok t x y true HB HX HY). unfold swap_if. now rewrite Z.gtb_ltb.
Qed.
Print Assumptions C71_swap_if_integers.

Example C71_integers_case :
  int_swap_if {| bits := 8; signed := true |} false 127 (-128) = (-128, 127)%Z /\
  int_swap_if {| bits := 64; signed := false |} true 5 7 = (7, 5)%Z.
Proof. split; vm_compute; reflexivity. Qed.

(** The overloads for floating point types do what the generic swap_if does exactly when one of the operands is less than the other or both are the same datum. *)
Theorem C71_swap_if_floats_iff_partial :
  forall x y : fp,
    (float_swap_if fp_lt false x y = swap_if fp_lt (fun z => z) x y <-> x = y \/ fp_lt x y = true \/ fp_lt y x = true) /\
    (float_swap_if fp_lt true x y = swap_if (fun a b => fp_lt b a) (fun z => z) x y <-> x = y \/ fp_lt x y = true \/ fp_lt y x = true).
Proof. intros x y. split; [exact (float_swap_if_iff fp fp_lt fp_lt_asym false x y)|exact (float_swap_if_iff fp fp_lt fp_lt_asym true x y)]. Qed.
Print Assumptions C71_swap_if_floats_iff_partial.

Example C71_floats_case :
  float_swap_if fp_lt false (Finite false 3 0) (Infinite true) = (Infinite true, Finite false 3 0).
Proof. vm_compute. reflexivity. Qed.

(** Elements are lost on the other operands: the two zeros, and a number and a NaN. *)
Theorem C71_swap_if_floats_refuted :
  (exists x y : fp, isnan x = false /\ isnan y = false /\ ~ Permutation [x; y] (let (u, v) := float_swap_if fp_lt false x y in [u; v])) /\
  (exists x y : fp, isnan x = false /\ isnan y = true /\ ~ Permutation [x; y] (let (u, v) := float_swap_if fp_lt false x y in [u; v])).
Proof.
  split; [exists (Zero true), (Zero false)|exists (Finite false 1 0), (Nan false 1)]; split; [|split| |split]; try reflexivity; cbn; intros H.
  - apply (Permutation_in (Zero false)) in H; [|cbn; auto]. destruct H as [H|[H|[]]]; discriminate.
  - apply (Permutation_in (Nan false 1)) in H; [|cbn; auto]. destruct H as [H|[H|[]]]; discriminate.
Qed.
Print Assumptions C71_swap_if_floats_refuted.

(** The sorting networks on integers, with the overload. *)
Theorem C71_integer_networks_sort :
  forall (t : int_type) (greater : bool), (1 <= bits t)%Z ->
    let ok := Forall (fun x => fits t x = true) in
    let R := is_sorting_of (if greater then fun x y => Z.ltb y x else Z.ltb) in
    (forall n, n <= 32 -> sorts_size_by n ok R (sorting_network_sorter_by (int_swap_if t greater) n)) /\
    (forall n, sorts_size_by n ok R (merge_exchange_network_sorter_by (int_swap_if t greater) n)) /\
    (forall n, n = 0 \/ (exists k, n = 2 ^ k) -> sorts_size_by n ok R (odd_even_merge_network_sorter_by (int_swap_if t greater) n)).
Proof. intros t greater HB ok R. apply all_networks. intros n ps HV HS. exact (int_network n ps HV HS t greater HB). Qed.
Print Assumptions C71_integer_networks_sort.

Example C71_integer_networks_case :
  sorting_network_sorter_by (int_swap_if {| bits := 8; signed := true |} false) 5 1 6 (map Val [9; 4; -128; 5; -128; 127; 0]%Z)
    = Ok tt (map Val [9; -128; -128; 4; 5; 127; 0]%Z).
Proof. vm_compute. reflexivity. Qed.

(** The sorting networks on floating point numbers: sorted up to equivalence, and exactly if the collection does not have both zeros. *)
Theorem C71_float_networks_sort_partial :
  forall (f : format) (greater : bool), f = binary32 \/ f = binary64 ->
    let lt : number f -> number f -> bool := if greater then fun x y => less y x else less in
    let sw := float_swap_if (@less f) greater in
    let ok1 := fun _ : list (number f) => True in
    let ok2 := fun xs : list (number f) => forall x y, In x xs -> In y xs -> equivalent less x y = true -> x = y in
    (forall n, n <= 32 -> sorts_size_by n ok1 (sorting_up_to_equivalence lt) (sorting_network_sorter_by sw n) /\
      sorts_size_by n ok2 (is_sorting_of lt) (sorting_network_sorter_by sw n)) /\
    (forall n, sorts_size_by n ok1 (sorting_up_to_equivalence lt) (merge_exchange_network_sorter_by sw n) /\
      sorts_size_by n ok2 (is_sorting_of lt) (merge_exchange_network_sorter_by sw n)) /\
    (forall n, n = 0 \/ (exists k, n = 2 ^ k) -> sorts_size_by n ok1 (sorting_up_to_equivalence lt) (odd_even_merge_network_sorter_by sw n) /\
      sorts_size_by n ok2 (is_sorting_of lt) (odd_even_merge_network_sorter_by sw n)).
Proof.
  intros f greater HF lt sw ok1 ok2. pose proof (supported_bits f HF) as HB.
  destruct (all_networks (number f) sw ok1 (sorting_up_to_equivalence lt)) as (A1 & A2 & A3).
  { intros n ps HV HS. exact (float_network n ps HV HS (number f) less greater (less_swo f HB)). }
  destruct (all_networks (number f) sw ok2 (is_sorting_of lt)) as (B1 & B2 & B3).
  { intros n ps HV HS. exact (float_network_exact n ps HV HS (number f) less greater (less_swo f HB)). }
  auto 10.
Qed.
Print Assumptions C71_float_networks_sort_partial.

(** Two numbers are equivalent without being the same only if they are the two zeros. *)
Theorem C71_distinct_equivalents_are_zeros :
  forall (f : format) (x y : number f), f = binary32 \/ f = binary64 -> equivalent less x y = true -> x <> y ->
    (pattern x = 0 /\ pattern y = 2 ^ (width f - 1))%Z \/ (pattern y = 0 /\ pattern x = 2 ^ (width f - 1))%Z.
Proof. intros f x y HF. apply distinct_equivalents; auto. Qed.
Print Assumptions C71_distinct_equivalents_are_zeros.

Definition plus_zero : number binary32 := exist _ 0%Z eq_refl.
Definition minus_zero : number binary32 := exist _ (2 ^ 31)%Z eq_refl.
Definition one : number binary32 := exist _ 1065353216%Z eq_refl.
Definition minus_one : number binary32 := exist _ 3212836864%Z eq_refl.
(** With both zeros, the network of two inputs loses one of them. *)
Theorem C71_float_networks_sort_refuted :
  exists x y : number binary32, pattern x = (2 ^ 31)%Z /\ pattern y = 0%Z /\
    sorting_network_sorter_by (float_swap_if (@less binary32) false) 2 0 2 (map Val [x; y]) = Ok tt (map Val [x; x]).
Proof. exists minus_zero, plus_zero. repeat split. Qed.
Print Assumptions C71_float_networks_sort_refuted.

Example C71_float_networks_case :
  exists x y : number binary32, decode binary32 (pattern x) = Finite false 8388608 (-23) /\ decode binary32 (pattern y) = Finite true 8388608 (-23) /\
    sorting_network_sorter_by (float_swap_if (@less binary32) false) 2 0 2 (map Val [x; y]) = Ok tt (map Val [y; x]).
Proof. exists one, minus_one. repeat split. Qed.
