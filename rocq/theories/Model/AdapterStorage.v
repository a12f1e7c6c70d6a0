(** utility/adapter_storage.h, and the storage of the adapters: which sorters, with which states, an adapter holds once it is made.

    Simplifications: a sorter of the user has a type, flags for this type and a state, all numbers; the adapters that adapt one sorter are told
    apart by a number; a nested hybrid_adapter of one sorter, to which this sorter converts, is left out of [stable_hybrid]. *)
From Coq Require Import List Bool Arith.
Import ListNotations.

Inductive sorter :=
| Sorter (type : nat) (is_empty is_default_constructible : bool) (state : nat)
(** An adapter of one sorter, with what get() gives. *)
| Adapter (kind : nat) (adapted : sorter)
(** hybrid_adapter<declared...>, with the sorters of its storage. *)
| Hybrid (declared flat : list sorter).

(** std::is_empty and std::is_default_constructible: the storage has a member unless the sorter is both (adapter_storage.h:30-32, 65-70); the
    storage of hybrid_adapter has one adapter_storage for each sorter (hybrid_adapter.h:79-82, 108-160). *)
Fixpoint default_constructible (s : sorter) : bool :=
  match s with
  | Sorter _ _ d _ => d
  | Adapter _ s => default_constructible s
  | Hybrid _ flat => forallb default_constructible flat
  end.
Fixpoint empty (s : sorter) : bool :=
  match s with
  | Sorter _ e _ _ => e
  | Adapter _ s => empty s && default_constructible s
  | Hybrid _ flat => forallb (fun s => empty s && default_constructible s) flat
  end.
Definition stateless (s : sorter) : bool := empty s && default_constructible s.

(** Sorter{} for the type of this sorter. *)
Fixpoint default_constructed (s : sorter) : sorter :=
  match s with
  | Sorter t e d _ => Sorter t e d 0
  | Adapter k s => Adapter k (default_constructed s)
  | Hybrid declared flat => Hybrid declared (map default_constructed flat)
  end.

(** What get() gives after adapter_storage(sorter) (adapter_storage.h:35-60 and 65-125). *)
Definition stored (s : sorter) : sorter := if stateless s then default_constructed s else s.
(** The constructor of an adapter of one sorter, as indirect_adapter.h:209-211. *)
Definition adapt (kind : nat) (s : sorter) : sorter := Adapter kind (stored s).

(** hybrid_adapter::get_flat_tuple and get_sorters_from_impl (hybrid_adapter.h:364-397).  [None]: ill-formed.  value.get() is called on an
    lvalue (line 369), and get() && of the storage calls get() of an lvalue as well (lines 190-201): it gives an lvalue reference to a sorter that
    is stored, which does not convert to Sorter&& (line 251). *)
Definition flat_tuple (s : sorter) : option (list sorter) :=
  match s with
  | Hybrid _ flat => if forallb stateless flat then Some (map stored flat) else None
  | s => Some [s]
  end.
Fixpoint tuple_cat (l : list sorter) : option (list sorter) :=
  match l with
  | [] => Some []
  | s :: l => match flat_tuple s, tuple_cat l with Some a, Some b => Some (a ++ b) | _, _ => None end
  end.
(** hybrid_adapter(Sorters...) (hybrid_adapter.h:401-405 and 244-253). *)
Definition hybrid (l : list sorter) : option sorter :=
  match tuple_cat l with Some flat => Some (Hybrid l (map stored flat)) | None => None end.
(** The sorters that hybrid_adapter calls: get() of each leaf (hybrid_adapter.h:93-98). *)
Definition sorters_of (s : sorter) : list sorter := match s with Hybrid _ flat => flat | s => [s] end.

(** std::is_same of the types: the states are left out. *)
Fixpoint same_type (a b : sorter) : bool :=
  match a, b with
  | Sorter t e d _, Sorter u f g _ => Nat.eqb t u && Bool.eqb e f && Bool.eqb d g
  | Adapter k a, Adapter l b => Nat.eqb k l && same_type a b
  | Hybrid a _, Hybrid b _ =>
      (fix same_types l m := match l, m with [], [] => true | a :: l, b :: m => same_type a b && same_types l m | _, _ => false end) a b
  | _, _ => false
  end.
(** stable_t<Sorter>(sorter) (stable_adapter.h:199-207 and 253-304).  [always_stable]: is_always_stable_v; [kind]: the number of stable_adapter. *)
Definition stable (always_stable : sorter -> bool) (kind : nat) (s : sorter) : sorter := if always_stable s then s else adapt kind s.
(** stable_t<Sorters>(std::move(sorters).template get<Indices>())... (detail/stable_adapter_hybrid_adapter.h:24-30): get counts the sorters of the
    storage, the indices those that were declared. *)
Fixpoint stable_sorters (always_stable : sorter -> bool) (kind : nat) (declared flat : list sorter) : option (list sorter) :=
  match declared, flat with
  | [], _ => Some []
  | d :: declared, f :: flat =>
      if same_type d f
      then match stable_sorters always_stable kind declared flat with Some l => Some (stable always_stable kind f :: l) | None => None end
      else None
  | _, [] => None
  end.
(** stable_adapter<hybrid_adapter<Sorters...>>(sorters) (detail/stable_adapter_hybrid_adapter.h:17-42) *)
Definition stable_hybrid (always_stable : sorter -> bool) (kind : nat) (s : sorter) : option sorter :=
  match s with
  | Hybrid declared flat => match stable_sorters always_stable kind declared flat with Some l => hybrid l | None => None end
  | _ => None
  end.

(** The conversions to function pointers exist (Model.FunctionPointer): is_empty of the implementation (sorter_facade.h:151-154, for the adapters
    that are a sorter_facade), of every sorter for hybrid_adapter (hybrid_adapter.h:225-228). *)
Definition converts (s : sorter) : bool :=
  match s with Sorter _ e _ _ => e | Adapter _ _ => empty s | Hybrid _ flat => forallb empty flat end.
