(** C70: ska_sorter on pairs, tuples and sequences. *)
From Coq Require Import List Arith NArith ZArith Permutation Lia Bool.
From Verif Require Import Spec.Order Lang.Mem Spec.Sorts Spec.Verge Model.Comparators Model.Counting Model.Ska Model.Ieee Model.SkaCompound Proofs.Ieee Proofs.SkaKeys Proofs.SkaCompound.
Import ListNotations.
Local Open Scope Z_scope.

(** Every type built from integral types (the character types being unsigned), float, double, pairs, tuples and sequences, at any depth, whose sequences have
    elements with one sub-key that is not of type bool; no number is -0.0.  The full claim is on all the types that ska_sorter accepts and all the values; the
    three theorems below show that it is false without each of these conditions. *)
Theorem C70_ska_sorter_compound_sorts_partial :
  forall (A : Type) (t : compound) (proj : A -> value t) (branchless : bool), sortable t -> type_ok t ->
    sorts_when (Forall (fun x => good t (proj x))) (by_proj (value_less t) proj) (compound_ska_sorter t proj branchless).
Proof. exact compound_ska_sorts. Qed.
Print Assumptions C70_ska_sorter_compound_sorts_partial.

Definition int32 : compound := Scalar (Integral (Integer {| bits := 32; signed := true |})).
Definition uint64 : compound := Scalar (Integral (Integer {| bits := 64; signed := false |})).
Definition boolean : compound := Scalar (Integral Bool).
Definition float32 : compound := Scalar (Floating binary32).
(** std::string: std::char_traits<char> compares the characters as unsigned. *)
Definition string : compound := Sequence (Scalar (Integral (Character {| bits := 8; signed := false |}))).

Lemma bytes_32 : exists k, 0 < k /\ 32 = 8 * k. Proof. now exists 4. Qed.
Lemma bytes_64 : exists k, 0 < k /\ 64 = 8 * k. Proof. now exists 8. Qed.
Lemma bytes_8 : exists k, 0 < k /\ 8 = 8 * k. Proof. now exists 1. Qed.

(** Strings, in the lexicographic order. *)
Theorem C70_ska_sorter_strings_sorts :
  forall (A : Type) (proj : A -> list Z) (branchless : bool),
    sorts_when (Forall (fun x => Forall (fun c => 0 <= c < 256) (proj x))) (by_proj (lexicographical_compare Z.ltb) proj) (compound_ska_sorter string proj branchless).
Proof.
  intros A proj branchless pre xs post H. apply (compound_ska_sorts A string proj branchless I (conj bytes_8 eq_refl)).
  eapply Forall_impl; [|exact H]. intros x Hx. cbn [good string]. eapply Forall_impl; [|exact Hx]. intros c Hc. cbn. unfold type_min, type_max. cbn in *. lia.
Qed.
Print Assumptions C70_ska_sorter_strings_sorts.

(** std::tuple<std::string, bool, std::pair<int, std::vector<std::uint64_t>>>. *)
Theorem C70_ska_sorter_tuples_sorts :
  forall (A : Type) (proj : A -> list Z * (Z * ((Z * list Z) * unit))) (branchless : bool),
    sorts_when (Forall (fun x => let '(s, (b, ((i, v), _))) := proj x in
        Forall (fun c => 0 <= c < 256) s /\ 0 <= b <= 1 /\ - 2 ^ 31 <= i < 2 ^ 31 /\ Forall (fun u => 0 <= u < 2 ^ 64) v))
      (fun x y => let '(s, (b, ((i, v), _))) := proj x in let '(s', (b', ((i', v'), _))) := proj y in
        let strings := lexicographical_compare Z.ltb in
        strings s s' || (negb (strings s' s) && ((b <? b') || ((b =? b') && ((i <? i') || ((i =? i') && lexicographical_compare Z.ltb v v'))))))
      (compound_ska_sorter (Tuple [string; boolean; Pair int32 (Sequence uint64)]) proj branchless).
Proof.
  intros A proj branchless pre xs post H.
  destruct (compound_ska_sorts A (Tuple [string; boolean; Pair int32 (Sequence uint64)]) proj branchless) with (pre := pre) (xs := xs) (post := post) as (ys & E & HP & HS).
  - cbn. tauto.
  - repeat split; try exact bytes_32; try exact bytes_64; try exact bytes_8; exact I.
  - eapply Forall_impl; [|exact H]. intros x Hx. cbv beta in Hx. destruct (proj x) as [s [b [[i v] []]]] eqn:Ep. destruct Hx as (H1 & H2 & H3 & H4). cbn [good Tuple fold_right string boolean int32 uint64 fst snd scalar_good key_min key_max].
    unfold type_min, type_max. cbn [signed bits]. split; [eapply Forall_impl; [|exact H1]; intros c Hc; cbv beta in *; lia|]. split; [lia|]. split; [|exact I]. split; [lia|]. eapply Forall_impl; [|exact H4]. intros c Hc. cbv beta in *. lia.
  - exists ys. split; [exact E|]. split; [exact HP|]. intros i j x y Hij Hx Hy. specialize (HS i j x y Hij Hx Hy). unfold by_proj in HS. destruct (proj y) as [s [b [[k v] []]]], (proj x) as [s' [b' [[k' v'] []]]].
    cbn [value_less Tuple fold_right string boolean int32 uint64 fst snd scalar_less] in HS. rewrite <- HS. f_equal. f_equal. rewrite andb_false_r, orb_false_r.
    destruct (Z.ltb_spec b b'), (Z.ltb_spec b' b), (Z.eqb_spec b b'); try lia; cbn [orb negb andb]; auto.
    destruct (Z.ltb_spec k k'), (Z.ltb_spec k' k), (Z.eqb_spec k k'); try lia; reflexivity.
Qed.
Print Assumptions C70_ska_sorter_tuples_sorts.

(** 140 strings that are not sorted: a common prefix, an empty rest, and bytes from 0 to 139. *)
Example C70_ska_strings_case :
  let str n := [7; 7] ++ (if n =? 139 then [] else [138 - n; 5]) in
  let xs := map (fun n => str (Z.of_nat n)) (seq 0 140) in
  compound_ska_sorter string (fun x : list Z => x) false 0%nat 140%nat (map Val xs) = Ok tt (map Val (rev xs)).
Proof. vm_compute. reflexivity. Qed.

(** ** The elements of the sequences have several sub-keys: only the first one is taken into account.  With std::vector<std::pair<int, int>>, 128 vectors of one
    pair whose second elements are decreasing. *)
Definition pairs : list (list (Z * Z)) := map (fun i => [(0, 127 - Z.of_nat i)]) (seq 0 128).
Theorem C70_ska_sorter_sequences_of_pairs_refuted :
  compound_ska_sorter (Sequence (Pair int32 int32)) (fun x : list (Z * Z) => x) false 0%nat 128%nat (map Val pairs) = Ok tt (map Val pairs) /\
  ~ (forall (A : Type) (proj : A -> list (Z * Z)) (branchless : bool),
      sorts_when (Forall (fun x => Forall (fun p => 0 <= fst p < 2 ^ 31 /\ 0 <= snd p < 2 ^ 31) (proj x)))
        (by_proj (lexicographical_compare (fun p q => (fst p <? fst q) || ((fst p =? fst q) && (snd p <? snd q)))) proj)
        (compound_ska_sorter (Sequence (Pair int32 int32)) proj branchless)).
Proof.
  assert (R : compound_ska_sorter (Sequence (Pair int32 int32)) (fun x : list (Z * Z) => x) false 0%nat 128%nat (map Val pairs) = Ok tt (map Val pairs)) by (vm_compute; reflexivity).
  split; [exact R|]. intros H. specialize (H (list (Z * Z)) (fun x => x) false [] pairs []) as (ys & E & _ & HS).
  - apply Forall_forall. intros x Hx. unfold pairs in Hx. apply in_map_iff in Hx as (i & <- & Hi). apply in_seq in Hi. constructor; [cbn [fst snd]; lia|constructor].
  - change (length (@nil (cell (list (Z * Z))))) with 0%nat in E. replace (0 + length pairs)%nat with 128%nat in E by reflexivity. cbn [app] in E. rewrite !app_nil_r, R in E.
    apply (f_equal (fun r => match r with Ok _ m => m | _ => [] end)) in E. cbv beta iota in E.
    pose proof (f_equal (fun l => nth_error l 0%nat) E) as H0. pose proof (f_equal (fun l => nth_error l 1%nat) E) as H1. cbv beta in H0, H1. rewrite !nth_error_map in H0, H1.
    replace (nth_error pairs 0%nat) with (Some [(0, 127)]) in H0 by reflexivity. replace (nth_error pairs 1%nat) with (Some [(0, 126)]) in H1 by reflexivity.
    destruct (nth_error ys 0%nat) as [y0|] eqn:E0; [|discriminate]. destruct (nth_error ys 1%nat) as [y1|] eqn:E1; [|discriminate]. injection H0 as <-. injection H1 as <-.
    specialize (HS 0%nat 1%nat _ _ ltac:(lia) E0 E1). discriminate HS.
Qed.
Print Assumptions C70_ska_sorter_sequences_of_pairs_refuted.

(** ** The elements of the sequences are of type bool: a sort of the sequences that go on from an empty range reads its first element.  With std::deque<bool>, an
    empty sequence and 128 sequences that hold false. *)
Theorem C70_ska_sorter_sequences_of_bool_undefined :
  compound_ska_sorter (Sequence boolean) (fun x : list Z => x) false 0%nat 129%nat (map Val ([] :: repeat [0] 128)) = UB.
Proof. vm_compute. reflexivity. Qed.
Print Assumptions C70_ska_sorter_sequences_of_bool_undefined.

(** ** Two numbers that are equal have different keys.  With std::pair<float, int>, (0.0, 1) is less than (-0.0, 2) but comes after. *)
Definition zero : number binary32 := exist _ 0 eq_refl.
Definition minus_zero : number binary32 := exist _ (2 ^ 31) eq_refl.
Definition zeroes : list (number binary32 * Z) := (zero, 1) :: repeat (minus_zero, 2) 127.
Theorem C70_ska_sorter_negative_zero_refuted :
  ~ (forall (A : Type) (proj : A -> number binary32 * Z) (branchless : bool),
      sorts_when (Forall (fun x => 0 <= snd (proj x) < 2 ^ 31))
        (by_proj (fun p q => less (fst p) (fst q) || (negb (less (fst q) (fst p)) && (snd p <? snd q))) proj)
        (compound_ska_sorter (Pair float32 int32) proj branchless)).
Proof.
  intros H. specialize (H (number binary32 * Z)%type (fun x => x) false [] zeroes []) as (ys & E & _ & HS).
  - constructor; [cbn; lia|]. apply Forall_forall. intros x Hx. apply repeat_spec in Hx. subst x. cbn. lia.
  - change (length (@nil (cell (number binary32 * Z)))) with 0%nat in E. replace (0 + length zeroes)%nat with 128%nat in E by reflexivity. cbn [app] in E. rewrite !app_nil_r in E.
    assert (R : match compound_ska_sorter (Pair float32 int32) (fun x : number binary32 * Z => x) false 0%nat 128%nat (map Val zeroes) with
                | Ok _ m => (match nth_error m 0 with Some (Val (f, z)) => (pattern f, z) | _ => (0, 0) end, match nth_error m 127 with Some (Val (f, z)) => (pattern f, z) | _ => (0, 0) end)
                | _ => ((0, 0), (0, 0)) end = ((2 ^ 31, 2), (0, 1))) by (vm_compute; reflexivity).
    rewrite E in R. rewrite !nth_error_map in R. destruct (nth_error ys 0%nat) as [[f0 y0]|] eqn:E0; [|discriminate]. destruct (nth_error ys 127%nat) as [[f1 y1]|] eqn:E1; [|discriminate].
    cbn [option_map] in R. injection R as R1 R2 R3 R4. specialize (HS 0%nat 127%nat _ _ ltac:(lia) E0 E1). unfold by_proj in HS. cbn [fst snd] in HS. unfold less in HS. rewrite R1, R3, R2, R4 in HS. discriminate HS.
Qed.
Print Assumptions C70_ska_sorter_negative_zero_refuted.
