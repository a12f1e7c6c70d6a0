(** Sorter adapters. *)
From Coq Require Import List Arith Bool.
From Verif Require Import Lang.Mem Model.Indirect.
Import ListNotations.

(** * associate_iterator.h *)
Section Association.
Context {A D : Type}.

(** State of a collection of associations: the original collection, and the data members. *)
Definition assoc_state := (mem A * mem D)%type.

Inductive ares (X : Type) : Type := AOk (x : X) (s : assoc_state) | AErr.
Arguments AOk {X} x s.
Arguments AErr {X}.
Definition AM (X : Type) := assoc_state -> ares X.

(** Run one operation on the pointed-to element and one on the data member. *)
Definition both {X Y} (c : M A X) (d : M D Y) : AM (X * Y) := fun '(m, v) =>
  match c m, d v with
  | Ok x m', Ok y v' => AOk (x, y) (m', v')
  | _, _ => AErr
  end.

(** associate_iterator.h:83-95, association::get and the data member: reading the association of index [k] of
    a vector whose first association points to [first]. *)
Definition assoc_get (first k : nat) : AM (A * D) := both (get (first + k)) (get k).
(** associate_iterator.h:342-353, iter_move: an associated_value. *)
Definition assoc_take (first k : nat) : AM (A * D) := both (take (first + k)) (take k).
(** associate_iterator.h:75-81, assignment from an associated_value. *)
Definition assoc_put (first k : nat) (e : A * D) : AM (unit * unit) :=
  both (put (first + k) (fst e)) (put k (snd e)).
(** associate_iterator.h:67-73, move assignment from an association. *)
Definition assoc_move_to (first src dst : nat) : AM (unit * unit) :=
  both (move_to (first + src) (first + dst)) (move_to src dst).
(** associate_iterator.h:98-106 and 335-340, swap and iter_swap. *)
Definition assoc_swap (first i j : nat) : AM (unit * unit) :=
  both (swap (first + i) (first + j)) (swap i j).
End Association.
Arguments AOk {A D X} x s.
Arguments AErr {A D X}.

Section Associate.
Context {A D : Type}.

(** What the original collection holds where a range of associations holds the given cell. *)
Definition fst_cell (c : cell (A * D)) : cell A :=
  match c with Val (a, _) => Val a | Moved => Moved | Raw => Raw end.

(** Call a sorter on a vector of associations [(first, d0), (first + 1, d1), ...].  Every operation on an
    association acts on the pointed-to element and on the data member alike (see the operations above), so that
    the associations behave as a memory of pairs, whose first components are the original collection. *)
Definition with_associations (first : nat) (data : list D) (sorter : range_prog (A * D)) : M A unit := fun m =>
  let n := length data in
  match values (firstn n (skipn first m)) with
  | Some xs =>
      if length xs =? n then
        match sorter 0 n (map Val (combine xs data)) with
        | Ok _ v => if length v =? n
                    then Ok tt (firstn first m ++ map fst_cell v ++ skipn (first + n) m) else UB
        | UB => UB
        | NoFuel => NoFuel
        end
      else UB
  | None => UB
  end.
End Associate.

(** * schwartz_adapter.h *)
Section Schwartz.
Context {A T : Type}.

(** schwartz_adapter.h:58-93 (sort_with_schwartz).  The result is the list of the elements
    to which the projection was applied, in order (a ghost variable).  The adapted sorter is given the
    projection [data_getter] ([snd]) only, not the original one. *)
Definition sort_with_schwartz (inner : (T -> T -> bool) -> (A * T -> T) -> range_prog (A * T))
    (comp : T -> T -> bool) (proj : A -> T) (first size : nat) : M A (list A) :=
  let* (projected, calls) := loop (S size) (fun '(count, first, projected, calls) =>
    if count =? size then ret (inr (projected, calls)) else
    let* x := get first in
    ret (inl (S count, S first, projected ++ [proj x], calls ++ [x]))) (0, first, [], []) in
  with_associations first projected (inner comp snd) ;;
  ret calls.
End Schwartz.

(** * stable_adapter.h *)
Section Stable.
Context {A T : Type}.

(** stable_adapter.h:36-69. *)
Definition stable_compare (comp : T -> T -> bool) (proj : A -> T) (lhs rhs : A * nat) : bool :=
  if comp (proj (fst lhs)) (proj (fst rhs)) then true
  else if comp (proj (fst rhs)) (proj (fst lhs)) then false
  else snd lhs <? snd rhs.

(** stable_adapter.h:81-115 (make_stable_and_sort). *)
Definition make_stable (inner : (A * nat -> A * nat -> bool) -> range_prog (A * nat))
    (comp : T -> T -> bool) (proj : A -> T) (first last : nat) : M A unit :=
  let size := last - first in
  let* iterators := loop (S size) (fun '(count, iterators) =>
    if count =? size then ret (inr iterators)
    else ret (inl (S count, iterators ++ [count]))) (0, []) in
  with_associations first iterators (inner (stable_compare comp proj)).

(** stable_adapter.h:190-239: forwards to the adapted sorter if is_stable, otherwise to make_stable. *)
Definition stable_adapter (is_stable : bool)
    (sorter : (T -> T -> bool) -> (A -> T) -> range_prog A)
    (inner : (A * nat -> A * nat -> bool) -> range_prog (A * nat))
    (comp : T -> T -> bool) (proj : A -> T) : range_prog A :=
  if is_stable then sorter comp proj else make_stable inner comp proj.
End Stable.

(** * out_of_place_adapter.h *)
Section OutOfPlace.
Context {A : Type}.

(** detail/immovable_vector.h:133-150, insert_back into an empty vector at [buffer]. *)
Definition insert_back (first last buffer : nat) : M A nat :=
  loop (S (last - first)) (fun '(first, writer) =>
    if first =? last then ret (inr writer) else
    let* x := take first in
    construct writer x ;;
    ret (inl (S first, S writer))) (first, buffer).

(** std::move(first, last, result). *)
Definition std_move (first last result : nat) : M A nat :=
  loop (S (last - first)) (fun '(first, result) =>
    if first =? last then ret (inr result) else
    move_to first result ;;
    ret (inl (S first, S result))) (first, result).

(** detail/memory.h, detail::destroy. *)
Definition destroy_range (first last : nat) : M A unit :=
  loop (S (last - first)) (fun first =>
    if first =? last then ret (inr tt) else
    destroy first ;; ret (inl (S first))) first.

(** out_of_place_adapter.h:32-58.  The buffer is destroyed and freed on return. *)
Definition sort_out_of_place (sorter : range_prog A) (first last : nat) : M A unit :=
  let size := last - first in
  let* memory := alloc size in
  let* fin := insert_back first last memory in
  sorter memory fin ;;
  std_move memory fin first ;;
  destroy_range memory fin ;;
  dealloc memory size.
End OutOfPlace.

(** * counting_adapter.h, metrics/comparisons.h, metrics/projections.h *)
Section Counting.
Context {A T X S : Type}.

(** Any computation which uses the comparison and the projection by calling them. *)
Inductive prog : Type :=
| Done (x : X)
| Compare (a b : T) (k : bool -> prog)
| Project (a : A) (k : T -> prog).
End Counting.
Arguments prog : clear implicits.

Section CountingAdapter.
Context {A T X : Type}.

(** Function objects with state. *)
Definition comparison (S : Type) := T -> T -> S -> bool * S.
Definition projection (S : Type) := A -> S -> T * S.

Fixpoint run {S} (comp : comparison S) (proj : projection S) (p : prog A T X) (s : S) : X * S :=
  match p with
  | Done x => (x, s)
  | Compare a b k => let (r, s') := comp a b s in run comp proj (k r) s'
  | Project a k => let (t, s') := proj a s in run comp proj (k t) s'
  end.

(** detail/comparison_counter.h:19-47: increments the counter, then calls the comparison. *)
Definition comparison_counter {S} (comp : comparison S) : comparison (nat * S) :=
  fun a b '(count, s) => let (r, s') := comp a b s in (r, (count + 1, s')).
(** metrics/projections.h:34-62. *)
Definition projection_counter {S} (proj : projection S) : projection (nat * S) :=
  fun a '(count, s) => let (t, s') := proj a s in (t, (count + 1, s')).
(** A function object which does not touch the counter. *)
Definition uncounted_proj {S} (proj : projection S) : projection (nat * S) :=
  fun a '(count, s) => let (t, s') := proj a s in (t, (count, s')).
Definition uncounted_comp {S} (comp : comparison S) : comparison (nat * S) :=
  fun a b '(count, s) => let (r, s') := comp a b s in (r, (count, s')).

(** counting_adapter.h:49-114, metrics/comparisons.h:51-120: the final state of the collection [x], of the function
    objects [s], and the count returned.  CountType is unbounded. *)
Definition counting_adapter {S} (sorter : prog A T X) (comp : comparison S) (proj : projection S) (s : S)
  : X * S * nat :=
  let '(x, (count, s')) := run (comparison_counter comp) (uncounted_proj proj) sorter (0, s) in (x, s', count).
(** metrics/projections.h:109-126. *)
Definition metrics_projections {S} (sorter : prog A T X) (comp : comparison S) (proj : projection S) (s : S)
  : X * S * nat :=
  let '(x, (count, s')) := run (uncounted_comp comp) (projection_counter proj) sorter (0, s) in (x, s', count).
End CountingAdapter.

(** * hybrid_adapter.h *)
Section Hybrid.

(** hybrid_adapter.h:47-60: iterator_category_value. *)
Inductive category := Forward | Bidirectional | RandomAccess.
Definition category_value (c : category) : nat :=
  match c with Forward => 0 | Bidirectional => 1 | RandomAccess => 2 end.

(** An adapted sorter, as overload resolution sees it for a given call: its category, and whether it
    is callable with the arguments. *)
Definition adapted := (category * bool)%type.

(** hybrid_adapter.h:143-151: the index of the overload of each sorter. *)
Definition leaf_index (n : nat) (c : category) (i : nat) : nat := n * category_value c + n - i - 1.
(** hybrid_adapter.h:63-68: the value passed by the call. *)
Definition choice_for_it (c : category) (n : nat) : nat := (category_value c + 1) * n - 1.

(** hybrid_adapter.h:35-41: choice<c> converts to choice<i> when i <= c.  The viable overloads, as pairs
    (index of the overload, position of the sorter). *)
Definition viable (sorters : list adapted) (it : category) : list (nat * nat) :=
  let n := length sorters in
  map (fun '((c, _), i) => (leaf_index n c i, i))
    (filter (fun '((c, callable), i) => callable && (leaf_index n c i <=? choice_for_it it n))
       (combine sorters (seq 0 n))).

(** Overload resolution ([over.match.best], [over.ics.rank]): conversion to a more derived class is
    better, so the best overload is one whose index is greater than those of all the others.
    None: no viable overload, or an ambiguous call. *)
Definition resolve (cands : list (nat * nat)) : option nat :=
  option_map snd (find (fun c => forallb (fun d => (snd d =? snd c) || (fst d <? fst c)) cands) cands).

Definition hybrid_dispatch (sorters : list adapted) (it : category) : option nat :=
  resolve (viable sorters it).

(** hybrid_adapter.h:258-286. *)
Definition hybrid_adapter {A} (sorters : list (category * bool * range_prog A)) (it : category)
  : option (range_prog A) :=
  match hybrid_dispatch (map fst sorters) it with
  | Some i => option_map snd (nth_error sorters i)
  | None => None
  end.

(** hybrid_adapter.h:311-354: flattening of nested hybrid adapters. *)
Inductive sorter_type (X : Type) : Type :=
| Single (x : X)
| Hybrid (l : list (sorter_type X)).
Arguments Single {X} x.
Arguments Hybrid {X} l.

(** flatten_fold, with fuel; None when it runs out. *)
Fixpoint flatten_fold {X} (fuel : nat) (ts : list (sorter_type X)) (acc : list X) : option (list X) :=
  match fuel with
  | 0 => None
  | S n =>
    match ts with
    | [] => Some acc
    | Hybrid inner :: rest => flatten_fold n (inner ++ rest) acc
    | Single x :: rest => flatten_fold n rest (acc ++ [x])
    end
  end.

Fixpoint type_size {X} (t : sorter_type X) : nat :=
  match t with
  | Single _ => 1
  | Hybrid l => S (fold_right (fun t n => type_size t + n) 0 l)
  end.

(** hybrid_adapter.h:348-354. *)
Definition flatten {X} (sorters : list (sorter_type X)) : option (list X) :=
  flatten_fold (S (type_size (Hybrid sorters))) sorters [].
End Hybrid.
Arguments Single {X} x.
Arguments Hybrid {X} l.

(** * small_array_adapter.h *)
(** small_array_adapter.h:57-87: callable with an array of size N when N is in the domain; lines 89-110: with an
    array of any size when there is no domain.  None: the call is ill-formed. *)
Definition small_array_adapter {A} (fixed : nat -> range_prog A) (domain : option (list nat)) (n : nat)
  : option (range_prog A) :=
  match domain with
  | Some indices => if existsb (Nat.eqb n) indices then Some (fixed n) else None
  | None => Some (fixed n)
  end.
