(** is_stable, stable_t, and what a call of nested adapters runs: sorter_traits.h, adapters/{stable,hybrid,indirect,out_of_place,schwartz,counting}_adapter.h.

    Simplifications: the functions given to a call are left out, except whether there is a projection; every sorter of a hybrid_adapter is callable with
    them; self_sort_adapter (C76) and container_aware_adapter (C78) are left out, as are verge_adapter and the specializations of stable_adapter for
    std_sorter, default_sorter and verge_sorter. *)
From Coq Require Import List Bool Arith.
From Verif Require Import Model.Adapters.
Import ListNotations.

Inductive sorter :=
| Leaf (needs : category) (is_always_stable : bool) (name : nat) (* a sorter that is not an adapter *)
| Hybrid (l : list sorter)
| Counting (s : sorter)
| Indirect (s : sorter)
| OutOfPlace (s : sorter)
| Schwartz (s : sorter)
| MakeStable (s : sorter)
| StableAdapter (s : sorter).

(** The category of the iterators, and whether there is a projection other than the identity. *)
Record call := Call { iterators : category; projected : bool }.

(** The sorter that runs in the end, what it says about itself, and whether make_stable replaced the comparison on the way (stable_adapter.h:39-71). *)
Record run := Run { ran : nat; says_stable : bool; stabilized : bool }.

Inductive outcome (X : Type) := NoFuel | IllFormed | Answer (x : X).
Arguments NoFuel {X}. Arguments IllFormed {X}. Arguments Answer {X} x.

(** detail/checkers.h:23-40 and detail/raw_checkers.h:36-55: std::common_type_t of two tags is the weaker one.
    indirect_adapter.h:194 and out_of_place_adapter.h:104: forward iterators. *)
Definition weaker (c d : category) : category := if category_value c <=? category_value d then c else d.
Fixpoint iterator_category (s : sorter) : category :=
  match s with
  | Leaf c _ _ => c
  | Hybrid l => fold_right (fun s c => weaker (iterator_category s) c) RandomAccess l
  | Counting s | Schwartz s | MakeStable s | StableAdapter s => iterator_category s
  | Indirect _ | OutOfPlace _ => Forward
  end.

(** detail/checkers.h:42-60, stable_adapter.h:168, 233 and 241-248, detail/stable_adapter_hybrid_adapter.h:45. *)
Fixpoint always_stable (s : sorter) : bool :=
  match s with
  | Leaf _ b _ => b
  | Hybrid l => forallb always_stable l
  | Counting s | Indirect s | OutOfPlace s | Schwartz s => always_stable s
  | MakeStable _ | StableAdapter _ => true
  end.

(** The member type of stable_adapter<s>, or stable_adapter<s> if there is none (stable_adapter.h:234-238, 255-265 and 330;
    detail/stable_adapter_hybrid_adapter.h:17-46 has none). *)
Fixpoint adapter_type (s : sorter) : sorter :=
  match s with
  | StableAdapter s' => adapter_type s'
  | Hybrid _ => StableAdapter s
  | _ => if always_stable s then s else StableAdapter s
  end.

(** stable_adapter.h:268-309 *)
Definition stable_t (s : sorter) : sorter :=
  if always_stable s then match s with StableAdapter s' => adapter_type s' | _ => s end
  else adapter_type s.

(** hybrid_adapter.h:311-354 (C48_hybrid_adapter_flattens): a stable_adapter<hybrid_adapter<...>> is not flattened. *)
Fixpoint members (s : sorter) : list sorter :=
  match s with
  | Hybrid l => flat_map members l
  | _ => [s]
  end.

(** hybrid_adapter.h:95-108 and 255-309: a call and its stability choose among the same overloads. *)
Definition choose (l : list sorter) (c : call) : option sorter :=
  let ms := flat_map members l in
  match hybrid_dispatch (map (fun m => (iterator_category m, true)) ms) (iterators c) with
  | Some i => nth_error ms i
  | None => None
  end.

(** sorter_traits.h:229-235; hybrid_adapter.h:411-414, counting_adapter.h:27-30, indirect_adapter.h:217-220, out_of_place_adapter.h:111-114,
    schwartz_adapter.h:243-246. *)
Fixpoint is_stable (fuel : nat) (s : sorter) (c : call) : outcome bool :=
  match fuel with
  | 0 => NoFuel
  | S n =>
    match s with
    | Leaf _ b _ => Answer b
    | Hybrid l => match choose l c with Some m => is_stable n m c | None => IllFormed end
    | Counting s | Indirect s | OutOfPlace s | Schwartz s => is_stable n s c
    | MakeStable _ | StableAdapter _ => Answer true
    end
  end.

(** stable_adapter.h:77-112: the sorter is given random-access iterators and no projection. *)
Definition stabilize (r : outcome run) : outcome run :=
  match r with
  | Answer r => Answer (Run (ran r) (says_stable r) true)
  | r => r
  end.

(** What a call runs.  A sorter that is given iterators of a category it does not accept fails to compile. *)
Fixpoint runs (fuel : nat) (s : sorter) (c : call) : outcome run :=
  match fuel with
  | 0 => NoFuel
  | S n =>
    match s with
    | Leaf k b name => if category_value k <=? category_value (iterators c) then Answer (Run name b false) else IllFormed
    | Hybrid l => match choose l c with Some m => runs n m c | None => IllFormed end
    (* counting_adapter.h:49-125 *)
    | Counting s => runs n s c
    (* indirect_adapter.h:34-138: a vector of iterators, and the projection is composed with utility::indirect *)
    | Indirect s => runs n s (Call RandomAccess true)
    (* out_of_place_adapter.h:32-59: a buffer, and the same functions *)
    | OutOfPlace s => runs n s (Call RandomAccess (projected c))
    (* schwartz_adapter.h:218-236, then 58-88 and 103-186 *)
    | Schwartz (Schwartz s) => runs n (Schwartz s) c
    | Schwartz s => if projected c then runs n s (Call RandomAccess true) else runs n s c
    | MakeStable s => stabilize (runs n s (Call RandomAccess false))
    (* stable_adapter.h:316-331, detail/stable_adapter_hybrid_adapter.h:17-46, then stable_adapter.h:209-228 *)
    | StableAdapter (StableAdapter s) => runs n (StableAdapter s) c
    | StableAdapter (Hybrid l) => runs n (Hybrid (map stable_t l)) c
    | StableAdapter s =>
        match is_stable n s c with
        | Answer true => runs n s c
        | Answer false => stabilize (runs n s (Call RandomAccess false))
        | IllFormed => IllFormed
        | NoFuel => NoFuel
        end
    end
  end.

(** Enough fuel (Proofs/Stability.v). *)
Fixpoint weight (s : sorter) : nat :=
  match s with
  | Leaf _ _ _ => 1
  | Hybrid l => S (fold_right (fun s n => weight s + n) 0 l)
  | Counting s | Indirect s | OutOfPlace s | Schwartz s | MakeStable s => S (weight s)
  | StableAdapter s => 2 * weight s
  end.
