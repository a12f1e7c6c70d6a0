(** C87: the entry points of the sorters, and the size they use. *)
From Coq Require Import ZArith List Bool String Permutation.
From Verif Require Import Model.Entry Proofs.Entry.
Import ListNotations.

(** utility::size is never ambiguous, and gives the number of elements: of an array, of a collection with a truthful size(), and of any other
    one that can be iterated. *)
Theorem C87_size :
  forall (A : Type) (c : @collection A) (constant : bool),
    (forall n, size_method c = Some n -> n = List.length (elements c) /\ is_array c = false) ->
    (size_method c = None -> constant = true -> constant_begin c = true) -> (is_array c = true -> constant_begin c = true) ->
    size constant c = Some (List.length (elements c)).
Proof. exact @size_correct. Qed.
Print Assumptions C87_size.

(** Every sorter can be called with a collection, and with two iterators, of every category from the declared one on. *)
Theorem C87_sorters :
  forall (s : sorter) (c : category), In s sorters -> rank (declared s) <= rank c -> sorts_iterators s c = true /\ sorts_collection s c = true.
Proof. exact entry_sorters. Qed.
Print Assumptions C87_sorters.

(** So can every adapter, whatever the adapted sorter, except verge_adapter with two iterators that are not random-access ones. *)
Theorem C87_adapters_partial :
  forall (adapted : option category) (s : sorter) (c : category), In s (adapters adapted) -> rank (declared s) <= rank c ->
    sorts_collection s c = true /\ (name s <> "verge_adapter"%string \/ c = RandomAccess -> sorts_iterators s c = true).
Proof. exact entry_adapters. Qed.
Print Assumptions C87_adapters_partial.

(** verge_adapter declares bidirectional iterators unless the adapted sorter asks for more, but subtracts them. *)
Theorem C87_verge_adapter_refuted :
  forall adapted : option category, adapted <> Some RandomAccess ->
    exists s, In s (adapters adapted) /\ name s = "verge_adapter"%string /\ declared s = Bidirectional /\
      sorts_collection s Bidirectional = true /\ sorts_iterators s Bidirectional = false.
Proof.
  intros adapted HA. eexists. split; [do 5 right; left; reflexivity|]. destruct adapted as [[]|]; try (repeat split; reflexivity). now destruct HA.
Qed.
Print Assumptions C87_verge_adapter_refuted.

(** The size that verge_adapter computes, in any order of evaluation of its arguments, if moving an iterator leaves it where it was. *)
Theorem C87_verge_size_partial :
  forall (after : Z -> Z) (order : list argument) (first last : Z),
    (forall x, after x = x) -> Permutation order [MoveFirst; MoveLast; Difference] -> evaluate after order first last = Some (last - first)%Z.
Proof.
  intros after order first last HA HP. apply evaluate_copy; auto. apply (Permutation_in Difference (Permutation_sym HP)). simpl. auto.
Qed.
Print Assumptions C87_verge_size_partial.

(** It is wrong for every other iterator in some order, and it depends on the order. *)
Theorem C87_verge_size_refuted :
  forall (after : Z -> Z) (first last : Z), after last <> last ->
    exists order, Permutation order [MoveFirst; MoveLast; Difference] /\ evaluate after order first last <> Some (last - first)%Z /\
      evaluate after [Difference; MoveFirst; MoveLast] first last = Some (last - first)%Z.
Proof.
  intros after first last HA. exists [MoveLast; Difference; MoveFirst]. split; [|split].
  - apply Permutation_sym. apply (Permutation_cons_append [MoveLast; Difference] MoveFirst).
  - simpl. intros E. injection E as E. apply HA. apply (Z.add_cancel_r _ _ (- first)). exact E.
  - reflexivity.
Qed.
Print Assumptions C87_verge_size_refuted.

(** An array that is not constant, one that is, a std::forward_list, a view that can only be iterated if it is not constant; a list with merge_sorter. *)
Example C87_case :
  size false (Collection [1; 2; 3] true None true) = Some 3 /\ size true (Collection [1; 2; 3] true None true) = Some 3 /\
  resolve true (Collection [1; 2; 3] true None true) = Some ArraySize /\ resolve false (Collection [1; 2; 3] true None true) = Some Distance /\
  size true (Collection [1; 2] false None true) = Some 2 /\ size false (Collection [1; 2] false None false) = Some 2 /\
  size true (Collection [1; 2] false None false) = None /\ size false (Collection [1; 2] false (Some 2) true) = Some 2 /\
  In (Sorter "merge_sorter" Forward (Some FromCollection) FromDistance) sorters /\
  evaluate (fun _ => 0%Z) [MoveFirst; MoveLast; Difference] 10 30 = Some 0%Z.
Proof. repeat split; try reflexivity. simpl. tauto. Qed.
