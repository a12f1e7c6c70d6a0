(** Proofs about the entry points. *)
From Coq Require Import ZArith List Bool String Permutation Lia.
From Verif Require Import Model.Entry.
Import ListNotations.

Lemma size_correct : forall A (c : @collection A) constant,
  (forall n, size_method c = Some n -> n = List.length (elements c) /\ is_array c = false) ->
  (size_method c = None -> constant = true -> constant_begin c = true) -> (is_array c = true -> constant_begin c = true) ->
  size constant c = Some (List.length (elements c)).
Proof.
  intros A [l arr [n|] cb] constant HS HC HA; simpl in *.
  - destruct (HS n eq_refl) as [-> ->]. destruct constant; reflexivity.
  - unfold size, resolve. destruct constant; [rewrite HC in * by auto|]; destruct arr; try rewrite HA by auto; try destruct cb; reflexivity.
Qed.

Lemma entry_sorters : forall s c, In s sorters -> rank (declared s) <= rank c -> sorts_iterators s c = true /\ sorts_collection s c = true.
Proof.
  intros s c HI HR. unfold sorts_iterators, sorts_collection, derives. apply Nat.leb_le in HR. rewrite HR. simpl in HI.
  repeat (destruct HI as [<-|HI]; [split; reflexivity|]). destruct HI.
Qed.

Lemma entry_adapters : forall adapted s c, In s (adapters adapted) -> rank (declared s) <= rank c ->
  sorts_collection s c = true /\ (name s <> "verge_adapter"%string \/ c = RandomAccess -> sorts_iterators s c = true).
Proof.
  intros adapted s c HI HR. unfold sorts_iterators, sorts_collection, derives. apply Nat.leb_le in HR. rewrite HR. simpl in HI.
  repeat (destruct HI as [<-|HI]; [split; [reflexivity|intros [H|H]; [try reflexivity; now destruct H|subst; reflexivity]]|]). destruct HI.
Qed.

Lemma evaluate_copy : forall after order first last, (forall x, after x = x) -> In Difference order ->
  evaluate after order first last = Some (last - first)%Z.
Proof.
  intros after order first last HA. revert first last. induction order as [|[] order IH]; intros first last HI; simpl.
  - destruct HI.
  - destruct HI as [HI|HI]; [discriminate|]. rewrite HA. now apply IH.
  - destruct HI as [HI|HI]; [discriminate|]. rewrite HA. now apply IH.
  - reflexivity.
Qed.
