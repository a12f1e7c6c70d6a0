(** What is expected of is_stable, and the sorters for which it holds. *)
From Coq Require Import List Bool Arith.
From Verif Require Import Spec.Order Model.Adapters Model.Stability.
Import ListNotations.

(** The sorter that runs is stable, or it sorts with a comparison that looks at the positions. *)
Definition stable_run (r : run) : Prop := says_stable r = true \/ stabilized r = true.

(** No hybrid_adapter. *)
Fixpoint hybrid_free (s : sorter) : Prop :=
  match s with
  | Leaf _ _ _ => True
  | Hybrid _ => False
  | Counting s | Indirect s | OutOfPlace s | Schwartz s | MakeStable s | StableAdapter s => hybrid_free s
  end.

(** No hybrid_adapter below an adapter that gives random-access iterators to the adapted sorter; make_stable does so too, but it makes any sorter stable. *)
Fixpoint keeps_choices (s : sorter) : Prop :=
  match s with
  | Leaf _ _ _ | MakeStable _ => True
  | Hybrid l => (fix all (l : list sorter) : Prop := match l with [] => True | s :: l => keeps_choices s /\ all l end) l
  | Counting s | StableAdapter s => keeps_choices s
  | Indirect s | OutOfPlace s | Schwartz s => hybrid_free s
  end.
Definition same_choices (s : sorter) (c : call) : Prop := iterators c = RandomAccess \/ keeps_choices s.

(** What the sorters that are not adapters do with a sequence.  [honest]: they sort, and those of [s] that say that they are stable are. *)
Definition algorithm := forall A : Type, (A -> A -> bool) -> list A -> list A.
Fixpoint leaves (s : sorter) : list (nat * bool) :=
  match s with
  | Leaf _ b name => [(name, b)]
  | Hybrid l => flat_map leaves l
  | Counting s | Indirect s | OutOfPlace s | Schwartz s | MakeStable s | StableAdapter s => leaves s
  end.
Definition honest (alg : nat -> algorithm) (s : sorter) : Prop :=
  (forall name A lt l, strict_weak_order lt -> is_sorting_of lt l (alg name A lt l)) /\
  (forall name, In (name, true) (leaves s) -> forall A lt l, strict_weak_order lt -> is_stable_sorting_of lt l (alg name A lt l)).

(** The sequence after a run: sorted with the given comparison, or with the one that looks at the positions of equivalent elements. *)
Definition by_position {A} (lt : A -> A -> bool) (x y : A * nat) : bool :=
  lt (fst x) (fst y) || (negb (lt (fst y) (fst x)) && (snd x <? snd y)).
Definition after (alg : nat -> algorithm) (r : run) {A} (lt : A -> A -> bool) (l : list A) : list A :=
  if stabilized r then map fst (alg (ran r) (A * nat)%type (by_position lt) (combine l (seq 0 (length l)))) else alg (ran r) A lt l.

(** The sorters left when the hybrid_adapters directly inside of a hybrid_adapter are flattened. *)
Inductive flattened : sorter -> sorter -> Prop :=
| flattened_itself : forall s, (forall l, s <> Hybrid l) -> flattened s s
| flattened_inside : forall l s m, In s l -> flattened s m -> flattened (Hybrid l) m.
