(** Cartesian tree sort (detail/cartesian_tree_sort.h).

    The nodes are in a buffer allocated at the end of the memory: the value of the node [i] is at [buffer + i], its pointers are in a
    separate list, [nodes], at the position [i]. *)
From Coq Require Import List Arith Bool.
From Verif Require Import Lang.Mem Model.Rotate Model.Heap Model.Indirect.
Import ListNotations.

(** detail/binary_tree.h:19-44.  [None]: nullptr. *)
Record tree_node := { parent : option nat; left_child : option nat; right_child : option nat }.

(** A call that modifies a local vector. *)
Definition run_vector {A E} (c : M E unit) (v : list E) : M A (list E) := fun m =>
  match c (map Val v) with
  | Ok _ v' => match values v' with Some v'' => Ok v'' m | None => UB end
  | UB => UB
  | NoFuel => NoFuel
  end.

Section Model.
Context {A T : Type} (comp : T -> T -> bool) (proj : A -> T).

(** detail/cartesian_tree_sort.h:87-102 ([_find_insertion_parent]). *)
Definition find_insertion_parent (buffer : nat) (nodes : list tree_node) (root prev_node : nat) (value : T) : M A (option nat) :=
  loop (S (length nodes)) (fun prev_node =>
    let* x := get (buffer + prev_node) in
    if comp value (proj x) then
      if prev_node =? root then ret (inr None) else
      let* n := rd nodes prev_node in
      match parent n with
      | None => ub
      | Some p => ret (inl p)
      end
    else ret (inr (Some prev_node))) prev_node.

(** detail/cartesian_tree_sort.h:60-70: the insertion of the element at [first]; the new node is the last one of the buffer. *)
Definition cartesian_insert (buffer first : nat) (nodes : list tree_node) (root : nat) : M A (list tree_node * nat) :=
  let* x := get first in
  let* new_parent := find_insertion_parent buffer nodes root (length nodes - 1) (proj x) in
  let new_node := length nodes in
  let* x := take first in
  construct (buffer + new_node) x ;;
  match new_parent with
  | None => ret (nodes ++ [{| parent := None; left_child := Some root; right_child := None |}], new_node)
  | Some p =>
      let* n := rd nodes p in
      let nodes := nodes ++ [{| parent := Some p; left_child := right_child n; right_child := None |}] in
      let* nodes := wr nodes p {| parent := parent n; left_child := left_child n; right_child := Some new_node |} in
      ret (nodes, root)
  end.

(** detail/cartesian_tree_sort.h:42-71 (the constructor): the nodes and the root. *)
Definition cartesian_tree (buffer first last : nat) : M A (list tree_node * nat) :=
  let* x := take first in
  construct (buffer + 0) x ;;
  loop (S (last - first)) (fun '(first, nodes, root) =>
    if first =? last then ret (inr (nodes, root)) else
    let* (nodes, root) := cartesian_insert buffer first nodes root in
    ret (inl (S first, nodes, root)))
    (S first, [{| parent := None; left_child := None; right_child := None |}], 0).

(** A pointer to a node in the priority queue is modelled by the index of the node and the value of the node.  The value does not change
    while the pointer is in the queue, except that of the front, which is moved from just before it is replaced or popped: see
    C18_pop_heap_ignores_the_front. *)
Definition queued (buffer i : nat) : M A (nat * A) :=
  let* x := get (buffer + i) in ret (i, x).

(** detail/cartesian_tree_sort.h:135-158, one iteration; [None]: the queue is empty. *)
Definition cartesian_step (buffer : nat) (nodes : list tree_node) (first : nat) (pq : list (nat * A)) : M A (option (list (nat * A))) :=
  let c := flip_comp comp in
  let p := fun e : nat * A => proj (snd e) in
  match pq with
  | [] => ret None
  | (node, _) :: rest =>
    move_to (buffer + node) first ;;
    let* n := rd nodes node in
    match left_child n, right_child n with
    | Some l, r =>
        let* l := queued buffer l in
        let pq := l :: rest in
        let* pq := run_vector (sift_down c p 0 (length pq) 0) pq in
        match r with
        | Some r =>
            let* r := queued buffer r in
            let pq := pq ++ [r] in
            let* pq := run_vector (push_heap c p 0 (length pq) (length pq)) pq in
            ret (Some pq)
        | None => ret (Some pq)
        end
    | None, Some r =>
        let* r := queued buffer r in
        let pq := r :: rest in
        let* pq := run_vector (sift_down c p 0 (length pq) 0) pq in
        ret (Some pq)
    | None, None =>
        let* pq := run_vector (pop_heap c p 0 (length pq) (length pq)) pq in
        ret (Some (removelast pq))
    end
  end.

(** detail/cartesian_tree_sort.h:114-159. *)
Definition cartesian_tree_sort (first last size : nat) : M A unit :=
  if size <? 2 then ret tt else
  let* buffer := alloc size in
  let* (nodes, root) := cartesian_tree buffer first last in
  let* r := queued buffer root in
  loop (S (S size)) (fun '(first, pq) =>
    let* r := cartesian_step buffer nodes first pq in
    match r with
    | None => ret (inr tt)
    | Some pq => ret (inl (S first, pq))
    end) (first, [r]) ;;
  destroy_n buffer (length nodes) ;;
  dealloc buffer size.

(** sorters/cartesian_tree_sorter.h:34-80. *)
Definition cartesian_tree_sorter : range_prog A := fun first last => cartesian_tree_sort first last (last - first).
End Model.
