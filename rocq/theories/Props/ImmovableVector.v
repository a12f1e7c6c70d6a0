(** C93: the elements of an immovable_vector are destroyed, each exactly once, wherever constructors throw. *)
From Coq Require Import List Bool Arith ZArith Lia.
From Verif Require Import Model.ImmovableVector Proofs.ImmovableVector.
Import ListNotations.

(** The operations ask for no more than the capacity. *)
Fixpoint fits (capacity : nat) (l : list operation) (n : nat) : Prop :=
  match l with
  | [] => True
  | o :: l => n + match o with EmplaceBack _ => 1 | InsertBack m => length m | Clear => 0 end <= capacity /\ fits capacity l (size_after o n)
  end.

(** Nothing is undefined; at any time exactly the elements before end() live, and an insertion that throws has no effect; after the destructor none
    does. *)
Theorem C93_lifetimes :
  forall (n : nat) (l : list operation), fits n l 0 ->
    exists v f, use l (make n) = Some v /\ end_ v = fold_left (fun s o => size_after o s) l 0 /\
      (forall i, alive v i = (i <? end_ v)) /\ destructor v = Some f /\ forall i, f i = false.
Proof.
  intros n l F.
  assert (H : forall v, first_alive (end_ v) (alive v) -> fits (capacity v) l (end_ v) ->
    exists w, use l v = Some w /\ end_ w = fold_left (fun s o => size_after o s) l (end_ v) /\ first_alive (end_ w) (alive w)).
  { clear n F. induction l as [|o l IH]; intros v A F; simpl in *; [exists v; auto|]. destruct F as [F1 F2].
    destruct (operate_spec o v A F1) as (w & E & C & S & B & _).
    destruct (IH w B) as (u & U & SU & AU); [now rewrite C, S|]. exists u. rewrite <- S. destruct E as [-> | ->]; auto. }
  destruct (H (make n)) as (v & U & S & A); [intros i; reflexivity|exact F|].
  destruct (destroy_all (end_ v) (alive v) A) as (f & D & B). exists v, f. repeat split; auto.
Qed.
Print Assumptions C93_lifetimes.

(** An exception goes out of an insertion exactly if a constructor throws. *)
Theorem C93_insertion_throws :
  forall (n : nat) (l : list operation) (constructors : list bool) (v : vector),
    fits n (l ++ [InsertBack constructors]) 0 -> use l (make n) = Some v ->
    ((exists w, insert_back constructors v = Throws w) <-> In true constructors).
Proof.
  intros n l cs v F U.
  assert (G : forall l s, fits n (l ++ [InsertBack cs]) s -> fits n l s /\ fold_left (fun s o => size_after o s) l s + length cs <= n).
  { clear. induction l as [|o l IH]; intros s F; simpl in *; [tauto|]. destruct F as [F1 F2]. apply IH in F2 as [F2 F3]. auto. }
  destruct (G l 0 F) as [F1 F2]. destruct (C93_lifetimes n l F1) as (v' & f & U' & S & A & _). rewrite U in U'. injection U' as <-.
  assert (C : capacity v = n).
  { clear - U. assert (K : forall l v w, use l v = Some w -> capacity w = capacity v).
    { clear. induction l as [|o l IH]; intros v w; simpl; [now injection 1 as <-|].
      assert (O : match operate o v with Returns x | Throws x => capacity x = capacity v | Undefined => True end).
      { destruct o; simpl; unfold emplace_back, insert_back, clear.
        - now destruct (construct _ _ _ _).
        - destruct (insert_loop _ _ _ _) as [[x f]|[x f]|]; auto. now destruct (destroy _ _ _).
        - now destruct (destroy _ _ _). }
      destruct (operate o v); [| |discriminate]; intros H; rewrite (IH _ _ H); auto. }
    now rewrite (K _ _ _ U). }
  destruct (operate_spec (InsertBack cs) v A) as (w & E & _ & _ & _ & T); [rewrite C, S; exact F2|]. simpl in *.
  rewrite existsb_exists in T. split.
  - intros (x & X). destruct E as [E | E]; [rewrite E in X; discriminate|]. apply T in E as (b & I & B). unfold id in B. now subst b.
  - intros I. exists w. apply T. now exists true.
Qed.
Print Assumptions C93_insertion_throws.

(** The assertion of operator[] accepts an index that is not that of an element, one past the last or negative. *)
Theorem C93_subscript_refuted :
  forall (n : nat) (l : list operation) (v : vector), fits n l 0 -> use l (make n) = Some v ->
    subscript_assertion (Z.of_nat (end_ v)) v = true /\ alive v (end_ v) = false /\ subscript_assertion (-1) v = true.
Proof.
  intros n l v F U. destruct (C93_lifetimes n l F) as (v' & f & U' & _ & A & _). rewrite U in U'. injection U' as <-.
  unfold subscript_assertion. rewrite A, Nat.ltb_irrefl. repeat split; apply Z.leb_le; lia.
Qed.
Print Assumptions C93_subscript_refuted.

(** Three elements fit: one, two of which the second throws, two again, one that throws after clear. *)
Example C93_case :
  let l := [EmplaceBack false; InsertBack [false; true]; InsertBack [false; false]; Clear; EmplaceBack true; EmplaceBack false] in
  fits 3 l 0 /\ fold_left (fun s o => size_after o s) l 0 = 1 /\ (exists v, use l (make 3) = Some v /\ end_ v = 1 /\ alive v 0 = true /\ alive v 1 = false) /\
  use [InsertBack [false; false; false; false]] (make 3) = None.
Proof. cbv zeta. split; [simpl; lia|]. repeat split. eexists. repeat split. Qed.
