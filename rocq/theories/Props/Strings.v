(** C69: string_spread_sorter on std::string, and on std::wstring where wchar_t has two bytes. *)
From Coq Require Import List Arith ZArith Bool.
From Verif Require Import Lang.Mem Spec.Order Spec.Sorts Model.Basic Model.Spread Model.SpreadString Proofs.SpreadString.
Import ListNotations.
Local Open Scope nat_scope.

Theorem C69_string_spread_sorter_sorts :
  forall (A : Type) (char_size : nat) (proj : A -> list Z) (branchless : bool), char_size = 1 \/ char_size = 2 ->
    sorts (by_proj (string_less char_size) proj) (string_spread_sorter char_size proj branchless).
Proof. intros A cs proj branchless H. now apply string_spread_sorts. Qed.
Print Assumptions C69_string_spread_sorter_sorts.

Theorem C69_reverse_string_spread_sorter_sorts :
  forall (A : Type) (char_size : nat) (proj : A -> list Z) (branchless : bool), char_size = 1 \/ char_size = 2 ->
    sorts (by_proj (string_greater char_size) proj) (reverse_string_spread_sorter char_size proj branchless).
Proof. intros A cs proj branchless H. now apply reverse_string_spread_sorts. Qed.
Print Assumptions C69_reverse_string_spread_sorter_sorts.

(** The order: character by character, the negative ones after the other ones; a prefix is before the string. *)
Example C69_string_less_case : string_less 1 [97; 98]%Z [97; -23]%Z = true /\ string_less 1 [97; -23]%Z [97; 98]%Z = false /\ string_less 1 [97]%Z [97; 0]%Z = true /\ string_less 1 [97; 0]%Z [97]%Z = false.
Proof. repeat split. Qed.

(** The bins themselves (the sorter calls them from a thousand elements on), with a common prefix, a prefix of all the strings and a negative character. *)
Example C69_bins_case :
  let a := [97; 98; 99; 100]%Z in let b := [97; 98; 99; -23]%Z in let c := [97; 98]%Z in let d := [97; 98; 99; 100; 0]%Z in let e := [97; 98; 99]%Z in
  match string_sort_rec 1 (fun x => x) true 6 1 7 0 [] 0 (map Val [[]; b; d; e; a; c; c; []]) with Ok _ m => Some m | _ => None end = Some (map Val [[]; c; c; e; a; d; b; []]) /\
  match reverse_string_sort_rec 1 (fun x => x) true 6 1 7 0 [] 0 (map Val [[]; c; d; e; b; a; c; []]) with Ok _ m => Some m | _ => None end = Some (map Val [[]; b; d; a; e; c; c; []]).
Proof. split; vm_compute; reflexivity. Qed.
