(** C25: integer_spread_sorter. *)
From Coq Require Import List Arith ZArith Permutation Lia Bool.
From Verif Require Import Spec.Order Lang.Mem Spec.Sorts Spec.Verge Model.Counting Model.Spread Proofs.Spread.
Import ListNotations.
Local Open Scope Z_scope.

(** The unsigned types (bool among them: its values are 0 and 1), the signed types that are narrower than int, and the others if the difference of
    two keys can be represented.  The full claim would not have this condition; it is false, as the next theorems show. *)
Theorem C25_integer_spread_sorter_sorts_partial :
  forall (A : Type) (proj : A -> Z) (branchless : bool),
    (forall b, In b [8; 16; 32; 64] ->
       sorts_when (Forall (fun x => 0 <= proj x < 2 ^ b)) (by_proj Z.ltb proj) (integer_spread_sorter {| bits := b; signed := false |} proj branchless)) /\
    (forall b, In b [8; 16] ->
       sorts_when (Forall (fun x => - 2 ^ (b - 1) <= proj x < 2 ^ (b - 1))) (by_proj Z.ltb proj) (integer_spread_sorter {| bits := b; signed := true |} proj branchless)) /\
    (forall b, In b [32; 64] ->
       sorts_when (fun xs => Forall (fun x => - 2 ^ (b - 1) <= proj x < 2 ^ (b - 1)) xs /\ forall x y, In x xs -> In y xs -> proj x - proj y < 2 ^ (b - 1))
         (by_proj Z.ltb proj) (integer_spread_sorter {| bits := b; signed := true |} proj branchless)).
Proof.
  intros A proj branchless. split; [|split]; intros b Hb pre xs post H; apply integer_spread_sorts; try (cbn in *; intuition fail).
  - intros x y Hx Hy Hxy. rewrite Forall_forall in H. pose proof (H x Hx). pose proof (H y Hy). cbv beta in *. unfold fits, promoted, type_min, type_max, int32. cbn in Hb. apply andb_true_iff. rewrite !Z.leb_le.
    destruct Hb as [<-|[<-|[<-|[<-|[]]]]]; cbn [bits signed Z.ltb Z.compare Pos.compare Pos.compare_cont]; lia.
  - intros x y Hx Hy Hxy. rewrite Forall_forall in H. pose proof (H x Hx). pose proof (H y Hy). cbv beta in *. unfold fits, promoted, type_min, type_max, int32. cbn in Hb. apply andb_true_iff. rewrite !Z.leb_le.
    destruct Hb as [<-|[<-|[]]]; cbn [bits signed Z.ltb Z.compare Pos.compare Pos.compare_cont]; lia.
  - intros x y Hx Hy Hxy. destruct H as [H HD]. rewrite Forall_forall in H. pose proof (H x Hx). pose proof (H y Hy). pose proof (HD x y Hx Hy). cbv beta in *. unfold fits, promoted, type_min, type_max, int32. cbn in Hb.
    apply andb_true_iff. rewrite !Z.leb_le. destruct Hb as [<-|[<-|[]]]; cbn [bits signed Z.ltb Z.compare Pos.compare Pos.compare_cont]; lia.
Qed.
Print Assumptions C25_integer_spread_sorter_sorts_partial.

(** int and long: a thousand elements or more, not sorted, two keys of which differ too much. *)
Theorem C25_integer_spread_sorter_overflow_undefined :
  forall (A : Type) (proj : A -> Z) (branchless : bool) (b : Z), In b [32; 64] ->
  forall pre xs post, (1000 <= length xs)%nat -> ~ sorted (by_proj Z.ltb proj) xs -> Forall (fun x => - 2 ^ (b - 1) <= proj x < 2 ^ (b - 1)) xs ->
    (exists x y, In x xs /\ In y xs /\ 2 ^ (b - 1) <= proj x - proj y) ->
    integer_spread_sorter {| bits := b; signed := true |} proj branchless (length pre) (length pre + length xs)%nat (pre ++ map Val xs ++ post) = UB.
Proof.
  intros A proj branchless b Hb pre xs post HL HN HF (x & y & Hx & Hy & HD). rewrite Forall_forall in HF. assert (HP : promoted {| bits := b; signed := true |} = {| bits := b; signed := true |}).
  { cbn in Hb. destruct Hb as [<-|[<-|[]]]; reflexivity. }
  assert (HT : In b [8; 16; 32; 64]) by (cbn in *; tauto).
  apply integer_spread_overflow; auto.
  - intros z Hz. specialize (HF z Hz). unfold fits, type_min, type_max. cbn [signed bits]. apply andb_true_iff. rewrite !Z.leb_le. cbv beta in HF. lia.
  - now rewrite HP.
  - exists x, y. split; auto. split; auto. rewrite HP. unfold type_max. cbn [signed bits]. lia.
Qed.
Print Assumptions C25_integer_spread_sorter_overflow_undefined.

Theorem C25_integer_spread_sorter_every_value_refuted :
  ~ (forall (A : Type) (proj : A -> Z) (branchless : bool) (b : Z), In b [32; 64] ->
       sorts_when (Forall (fun x => - 2 ^ (b - 1) <= proj x < 2 ^ (b - 1))) (by_proj Z.ltb proj) (integer_spread_sorter {| bits := b; signed := true |} proj branchless)).
Proof.
  intros H. set (xs := (2 ^ 31 - 1) :: (- 2 ^ 31) :: repeat 0 (10 * 10 * 10)%nat).
  assert (HF : Forall (fun x : Z => - 2 ^ (32 - 1) <= x < 2 ^ (32 - 1)) xs). { constructor; [lia|]. constructor; [lia|]. apply Forall_forall. intros x Hx. apply repeat_spec in Hx. lia. }
  destruct (H Z (fun x => x) false 32 (or_introl eq_refl) [] xs [] HF) as (ys & E & _).
  assert (R : integer_spread_sorter {| bits := 32; signed := true |} (fun x => x) false (length (@nil (cell Z))) (length (@nil (cell Z)) + length xs)%nat ([] ++ map Val xs ++ []) = UB); [|congruence].
  apply C25_integer_spread_sorter_overflow_undefined; auto.
  - now left.
  - unfold xs. cbn [length]. rewrite repeat_length. lia.
  - intros HS. specialize (HS 0%nat 1%nat (2 ^ 31 - 1) (- 2 ^ 31) ltac:(lia) eq_refl eq_refl). discriminate HS.
  - exists (2 ^ 31 - 1), (- 2 ^ 31). split; [now left|]. split; [right; now left|]. lia.
Qed.
Print Assumptions C25_integer_spread_sorter_every_value_refuted.

(** A thousand values of type int: -1, then multiples of 100 from 1500 down to 0 again and again. *)
Example C25_integer_spread_case : let xs := -1 :: map (fun i => 100 * ((63 - Z.of_nat i) mod 16)) (seq 0 (10 * 10 * 10)) in
  (Forall (fun x => - 2 ^ (32 - 1) <= x < 2 ^ (32 - 1)) xs /\ forall x y, In x xs -> In y xs -> x - y < 2 ^ (32 - 1)) /\
  integer_spread_sorter {| bits := 32; signed := true |} (fun x => x) false 1%nat (S (S (10 * 10 * 10))) (map Val (99 :: xs ++ [50])) =
    Ok tt (map Val (99 :: (-1 :: flat_map (fun k => filter (Z.eqb (100 * Z.of_nat k)) xs) (seq 0 16)) ++ [50])).
Proof.
  split; [|vm_compute; reflexivity].
  assert (HR : forall x, In x (-1 :: map (fun i => 100 * ((63 - Z.of_nat i) mod 16)) (seq 0 (10 * 10 * 10))) -> -1 <= x <= 1500).
  { intros x [<-|Hx]; [lia|]. apply in_map_iff in Hx as (i & <- & Hi). pose proof (Z.mod_pos_bound (63 - Z.of_nat i) 16 ltac:(lia)). lia. }
  split.
  - apply Forall_forall. intros x Hx. apply HR in Hx. lia.
  - intros x y Hx Hy. apply HR in Hx, Hy. lia.
Qed.
