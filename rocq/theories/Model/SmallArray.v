(** small_array_adapter with the fixed-size sorters of the library, alone, in a hybrid_adapter and in a schwartz_adapter: adapters/small_array_adapter.h,
    detail/schwartz_small_array.h, fixed/*.h.

    Simplifications: std::array and C arrays, which have the same overloads, are not told apart; the arguments after the array are a comparison and a
    projection that the sorters accept.  The condition of enable_if_t (small_array_adapter.h:72-75) is decided before its second argument is
    substituted, which is the lexical order. *)
From Coq Require Import List Bool Arith.
From Verif Require Import Lang.Mem Model.Basic Model.Networks Model.Fixed Model.Adapters.
Import ListNotations.

(** The class templates of fixed/*.h. *)
Inductive fixed_sorter := LowComparisons | LowMoves | MergeExchange | OddEvenMerge | SortingNetwork.

(** detail/bitops.h:119-131 on std::size_t: C73 shows that it tells the powers of two. *)
Definition has_single_bit (n : nat) : bool := negb (n =? 0) && (n =? 2 ^ Nat.log2 n).

(** Whether the class for the size [n] can be instantiated: the assertions at low_comparisons_sorter.h:31-34 (the specializations are for 0 and 1,
    lines 37-45, and in detail/low_comparisons/sort2.h .. sort13.h), odd_even_merge_network_sorter.h:122-123, sorting_network_sorter.h:29-32 (the
    specializations are for 0 and 1, lines 35-43, and in detail/sorting_network/sort2.h .. sort64.h); low_moves_sorter.h:33-95 and
    merge_exchange_network_sorter.h have a general case. *)
Definition instantiable (f : fixed_sorter) (n : nat) : bool :=
  match f with
  | LowComparisons => n <? 14
  | LowMoves | MergeExchange => true
  | OddEvenMerge => (n =? 0) || has_single_bit n
  | SortingNetwork => n <? 65
  end.

(** The member [domain] of fixed_sorter_traits, None when there is none: low_comparisons_sorter.h:69, low_moves_sorter.h:113-118,
    merge_exchange_network_sorter.h:144-149, odd_even_merge_network_sorter.h:135-140, sorting_network_sorter.h:81. *)
Definition domain (f : fixed_sorter) : option (list nat) :=
  match f with
  | LowComparisons => Some (seq 0 14)
  | LowMoves | MergeExchange | OddEvenMerge => None
  | SortingNetwork => Some (seq 0 33)
  end.

(** What the compiler makes of a call: a soft error (no viable overload), an error in a class that it has to instantiate, or a call. *)
Inductive resolution (X : Type) := NotCallable | HardError | Calls (x : X).
Arguments NotCallable {X}. Arguments HardError {X}. Arguments Calls {X} x.

(** [FixedSizeSorter<N>{}(array, ...)] in an unevaluated operand: the class is instantiated. *)
Definition instantiate (f : fixed_sorter) (n : nat) : resolution (fixed_sorter * nat) :=
  if instantiable f n then Calls (f, n) else HardError.

(** small_array_adapter.h:49-54: the parameter Indices (std::index_sequence or void, None) and its default value. *)
Inductive parameter := DefaultIndices | Indices (l : option (list nat)).
Definition indices (f : fixed_sorter) (i : parameter) : option (list nat) :=
  match i with DefaultIndices => domain f | Indices l => l end.

(** detail/any_all.h, is_in_pack. *)
Definition is_in_pack (n : nat) (l : list nat) : bool := existsb (Nat.eqb n) l.

(** small_array_adapter.h:67-87, and 97-109 for void. *)
Definition small_array (f : fixed_sorter) (i : parameter) (n : nat) : resolution (fixed_sorter * nat) :=
  match indices f i with
  | Some l => if is_in_pack n l then instantiate f n else NotCallable
  | None => instantiate f n
  end.

(** detail/schwartz_small_array.h:35-55 and 66-82: the same conditions; the body calls schwartz_adapter<FixedSizeSorter<N>>. *)
Definition schwartz_small_array (f : fixed_sorter) (i : parameter) (n : nat) : resolution (fixed_sorter * nat) :=
  match indices f i with
  | Some l => if is_in_pack n l then instantiate f n else NotCallable
  | None => instantiate f n
  end.

(** hybrid_adapter<small_array_adapter<f, i>, fallback> on an array of [n] elements: the candidates are considered in order, and the first one that is
    callable is chosen (hybrid_adapter.h:91-153, C48); the conditions of all are checked, and the fallback takes any random-access collection.  None:
    the fallback. *)
Definition hybrid_small_array (f : fixed_sorter) (i : parameter) (n : nat) : resolution (option (fixed_sorter * nat)) :=
  match small_array f i n with
  | Calls x => Calls (Some x)
  | NotCallable => Calls None
  | HardError => HardError
  end.

(** The sorter_traits of the fixed-size sorters: low_comparisons_sorter.h:55-64, low_moves_sorter.h:102-111, merge_exchange_network_sorter.h:138-142,
    odd_even_merge_network_sorter.h:129-133, sorting_network_sorter.h:54-73, detail/sorting_network/sort2.h:43-47 and sort3.h:47-51. *)
Definition is_always_stable (f : fixed_sorter) (n : nat) : bool :=
  match f with SortingNetwork => n <? 4 | _ => false end.

(** small_array_adapter.h:112-132: that of the sorter for the size of the array; schwartz_adapter.h:243-246. *)
Definition is_stable (f : fixed_sorter) (n : nat) : bool := is_always_stable f n.

(** What the call runs. *)
Definition program {A T} (x : fixed_sorter * nat) (comp : T -> T -> bool) (proj : A -> T) : range_prog A :=
  match x with
  | (LowComparisons, n) => low_comparisons_sorter comp proj n
  | (LowMoves, n) => low_moves_sorter comp proj n
  | (MergeExchange, n) => merge_exchange_network_sorter comp proj n
  | (OddEvenMerge, n) => odd_even_merge_network_sorter comp proj n
  | (SortingNetwork, n) => sorting_network_sorter comp proj n
  end.
