(** C88: the guards, and what is left of a collection when an exception is thrown. *)
From Coq Require Import List Bool ZArith Lia.
From Verif Require Import Model.ScopeGuard.
Import ListNotations.
Local Open Scope Z_scope.

(** The function of a scope_exit is called unless the last operation deactivates it; that of a scope_success if besides no exception has been
    thrown since: another one may be in flight, if the guard was made while the stack was unwound. *)
Theorem C88_guard_partial :
  forall (operations : list operation) (n m : Z),
    (destroy (fold_left operate operations make_scope_exit) m = true <-> last operations Activate = Activate) /\
    (destroy (fold_left operate operations (make_scope_success n)) m = true <-> last operations Activate = Activate /\ m <= n).
Proof.
  intros operations n m.
  assert (H : forall g, execute_on_destruction g = true -> forall l,
    uncaught_on_creation (fold_left operate l g) = uncaught_on_creation g /\
    (execute_on_destruction (fold_left operate l g) = true <-> last l Activate = Activate)).
  { intros g HG l. induction l as [|o l IH] using rev_ind; [simpl; tauto|]. rewrite fold_left_app, last_last. simpl. split; [tauto|].
    destruct o; split; auto; discriminate. }
  split.
  - destruct (H make_scope_exit eq_refl operations) as [H1 H2]. unfold destroy. rewrite H1, andb_true_r. exact H2.
  - destruct (H (make_scope_success n) eq_refl operations) as [H1 H2]. unfold destroy. rewrite H1, andb_true_iff, H2. simpl. now rewrite Z.leb_le.
Qed.
Print Assumptions C88_guard_partial.

(** A guard that is moved, as C++14 allows for the result of make_scope_exit: both guards call the function, and deactivating is forgotten. *)
Theorem C88_moved_guard_refuted :
  forall uncaught : Z,
    (let (moved, new) := move make_scope_exit uncaught in destroy moved uncaught = true /\ destroy new uncaught = true) /\
    (let (moved, new) := move (operate make_scope_exit Deactivate) uncaught in destroy new uncaught = true).
Proof. intros uncaught. repeat split. Qed.
Print Assumptions C88_moved_guard_refuted.

(** "as long as the collection of iterators is being sorted, if an exception is thrown, the collection to sort will remain in its original
    state" (docs/Sorter-adapters.md:145); without an exception, the elements are moved once, according to the sorted iterators. *)
Theorem C88_indirect_adapter :
  forall (A : Type) (write_back : list nat -> @collection A -> collection) (sorter : collection -> list nat -> outcome (list nat)) (uncaught : Z) (c : collection),
    match sorter c (seq 0 (length c)) with
    | Throws _ => sort_indirectly write_back sorter uncaught c = (c, true)
    | Returns iterators => sort_indirectly write_back sorter uncaught c = (if (length c <? 2)%nat then c else write_back iterators c, false)
    end.
Proof.
  intros A write_back sorter uncaught c. unfold sort_indirectly. destruct (sorter c (seq 0 (length c))) as [b|b].
  - destruct (length c <? 2)%nat; unfold destroy; simpl; auto. now rewrite Z.leb_refl.
  - destruct (length c <? 2)%nat; unfold destroy; simpl; auto. destruct (Z.leb_spec (uncaught + 1) uncaught); [lia|reflexivity].
Qed.
Print Assumptions C88_indirect_adapter.

(** out_of_place_adapter gives what the sorter gives, whatever exceptions are in flight; an exception loses every element. *)
Theorem C88_out_of_place_adapter :
  forall (A : Type) (sorter : @collection A -> outcome collection) (uncaught : Z) (c : collection),
    match sorter c with
    | Returns buffer => sort_out_of_place sorter uncaught c = (buffer, false)
    | Throws _ => snd (sort_out_of_place sorter uncaught c) = true /\ length (fst (sort_out_of_place sorter uncaught c)) = length c /\
                  forall o, In o (fst (sort_out_of_place sorter uncaught c)) -> o = MovedFrom
    end.
Proof.
  intros A sorter uncaught c. unfold sort_out_of_place. destruct (sorter c) as [b|b]; unfold destroy; simpl.
  - now rewrite Z.leb_refl.
  - destruct (Z.leb_spec (uncaught + 1) uncaught); [lia|]. simpl. repeat split; [apply map_length|]. intros o HI. apply in_map_iff in HI as (x & E & _). auto.
Qed.
Print Assumptions C88_out_of_place_adapter.

(** A comparison that throws, in a destructor that runs while another exception is in flight; a guard that is deactivated and activated again. *)
Example C88_case :
  sort_indirectly (fun _ c => rev c) (fun _ l => Throws (rev l)) 1 [Value 3; Value 1] = ([Value 3; Value 1], true) /\
  sort_indirectly (fun _ c => rev c) (fun _ l => Returns (rev l)) 1 [Value 3; Value 1] = ([Value 1; Value 3], false) /\
  sort_out_of_place (fun c => Throws c) 1 [Value 3; Value 1] = ([MovedFrom; MovedFrom], true) /\
  destroy (fold_left operate [Deactivate; Activate] (make_scope_success 1)) 1 = true.
Proof. repeat split. Qed.
