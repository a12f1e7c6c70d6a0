(** Splaysort (detail/splaysort.h).

    The nodes are in a buffer allocated at the end of the memory.  The pointers of the nodes are in a list of links: the node 0 is the
    sentinel, which has no value; the node [S i] is the [i]-th of the buffer and its value is at [buffer + i].  A pointer is [Some] of an
    index of the list of links, [None] is nullptr. *)
From Coq Require Import List Arith Bool.
From Verif Require Import Lang.Mem Model.Rotate Model.Indirect Model.Select Model.Cartesian.
Import ListNotations.

(** Is the pointer [p] the address of the node [i]? *)
Definition points_to (p : option nat) (i : nat) : bool :=
  match p with Some j => j =? i | None => false end.

(** detail/splaysort.h:116: [sentinel_node_]. *)
Definition sentinel : nat := 0.
Definition to_sentinel : option nat := Some sentinel.

Section Model.
Context {A T : Type} (comp : T -> T -> bool) (proj : A -> T).
Implicit Types nodes : list tree_node.

(** Dereferencing a pointer. *)
Definition deref (p : option nat) : M A nat := match p with Some i => ret i | None => ub end.

(** Assignments to a field of a node (detail/binary_tree.h:34-38). *)
Definition set_parent nodes (i : nat) (p : option nat) : M A (list tree_node) :=
  let* n := rd nodes i in wr nodes i {| parent := p; left_child := left_child n; right_child := right_child n |}.
Definition set_left nodes (i : nat) (p : option nat) : M A (list tree_node) :=
  let* n := rd nodes i in wr nodes i {| parent := parent n; left_child := p; right_child := right_child n |}.
Definition set_right nodes (i : nat) (p : option nat) : M A (list tree_node) :=
  let* n := rd nodes i in wr nodes i {| parent := parent n; left_child := left_child n; right_child := p |}.

(** detail/splaysort.h:33-50. *)
Definition rotate_left nodes (node : nat) : M A (list tree_node) :=
  let* n := rd nodes node in
  let* par := deref (parent n) in
  let* p := rd nodes par in
  let* grand_parent := deref (parent p) in
  let old := left_child n in
  let* nodes := set_left nodes node (Some par) in
  let* nodes := set_right nodes par old in
  let* child := deref old in
  let* nodes := set_parent nodes child (Some par) in
  let* p := rd nodes par in
  let* nodes := set_parent nodes par (Some node) in
  let* nodes := set_parent nodes node (parent p) in
  let* g := rd nodes grand_parent in
  if points_to (left_child g) par then set_left nodes grand_parent (Some node) else set_right nodes grand_parent (Some node).

(** detail/splaysort.h:52-69. *)
Definition rotate_right nodes (node : nat) : M A (list tree_node) :=
  let* n := rd nodes node in
  let* par := deref (parent n) in
  let* p := rd nodes par in
  let* grand_parent := deref (parent p) in
  let old := right_child n in
  let* nodes := set_right nodes node (Some par) in
  let* nodes := set_left nodes par old in
  let* child := deref old in
  let* nodes := set_parent nodes child (Some par) in
  let* p := rd nodes par in
  let* nodes := set_parent nodes par (Some node) in
  let* nodes := set_parent nodes node (parent p) in
  let* g := rd nodes grand_parent in
  if points_to (left_child g) par then set_left nodes grand_parent (Some node) else set_right nodes grand_parent (Some node).

(** detail/splaysort.h:80-109, one iteration of the loop of [splay]. *)
Definition splay_step nodes (node par : nat) : M A (list tree_node) :=
  let* p := rd nodes par in
  let* grand_parent := deref (parent p) in
  if grand_parent =? sentinel then
    if points_to (left_child p) node then rotate_right nodes node else rotate_left nodes node
  else
    let* g := rd nodes grand_parent in
    if points_to (left_child g) par then
      if points_to (left_child p) node then
        let* nodes := rotate_right nodes par in rotate_right nodes node
      else
        let* nodes := rotate_left nodes node in rotate_right nodes node
    else
      if points_to (left_child p) node then
        let* nodes := rotate_right nodes node in rotate_left nodes node
      else
        let* nodes := rotate_left nodes par in rotate_left nodes node.

(** detail/splaysort.h:71-112.  CPPSORT_ASSERT is modelled by [assert]: the behaviour is undefined when the condition is false. *)
Definition splay nodes (node : nat) : M A (list tree_node) :=
  let* n := rd nodes node in
  let* par := deref (parent n) in
  assert (negb (par =? sentinel)) ;;
  loop (S (length nodes)) (fun '(nodes, par) =>
    let* nodes := splay_step nodes node par in
    let* n := rd nodes node in
    let* par := deref (parent n) in
    if negb (par =? sentinel) then ret (inl (nodes, par)) else ret (inr nodes)) (nodes, par).

(** The address of the value of a node; the sentinel is not a [node_type]. *)
Definition value_of (buffer node : nat) : M A nat :=
  match node with 0 => ub | S i => ret (buffer + i) end.

(** [buffer_.emplace_back(iter_move(it), par, &sentinel_node_, &sentinel_node_)]: the links, and the new node. *)
Definition emplace_node (buffer it : nat) nodes (par : nat) : M A (list tree_node * nat) :=
  let node := length nodes in
  let* x := take it in
  let* a := value_of buffer node in
  construct a x ;;
  ret (nodes ++ [{| parent := Some par; left_child := to_sentinel; right_child := to_sentinel |}], node).

(** detail/splaysort.h:205-234 (with 236-241): the links and the root. *)
Definition splay_insert (buffer it : nat) nodes (root : nat) : M A (list tree_node * nat) :=
  let* x := get it in
  let value_proj := proj x in
  assert (negb (root =? sentinel)) ;;
  loop (S (length nodes)) (fun node =>
    let* n := rd nodes node in
    let* a := value_of buffer node in
    let* y := get a in
    if comp value_proj (proj y) then
      let* lc := deref (left_child n) in
      if lc =? sentinel then
        let* (nodes, new) := emplace_node buffer it nodes node in
        let* nodes := set_left nodes node (Some new) in
        let* nodes := splay nodes new in
        ret (inr (nodes, new))
      else ret (inl lc)
    else
      let* rc := deref (right_child n) in
      if rc =? sentinel then
        let* (nodes, new) := emplace_node buffer it nodes node in
        let* nodes := set_right nodes node (Some new) in
        let* nodes := splay nodes new in
        ret (inr (nodes, new))
      else ret (inl rc)) root.

(** detail/splaysort.h:138-156 and 28-30 (the sentinel): the links and the root. *)
Definition splay_tree (buffer first last : nat) : M A (list tree_node * nat) :=
  let* (nodes, root) := emplace_node buffer first [{| parent := None; left_child := None; right_child := None |}] sentinel in
  loop (S (last - first)) (fun '(first, nodes, root) =>
    if first =? last then ret (inr (nodes, root)) else
    let* (nodes, root) := splay_insert buffer first nodes root in
    ret (inl (S first, nodes, root)))
    (S first, nodes, root).

(** detail/splaysort.h:175-177 and 186-188. *)
Definition leftmost nodes (curr : nat) : M A nat :=
  loop (S (length nodes)) (fun curr =>
    let* n := rd nodes curr in
    let* lc := deref (left_child n) in
    if negb (lc =? sentinel) then ret (inl lc) else ret (inr curr)) curr.

(** [*out = std::move(static_cast<node_type*>(curr)->value)]. *)
Definition move_value (buffer curr out : nat) : M A unit :=
  let* a := value_of buffer curr in move_to a out.

(** detail/splaysort.h:170-201. *)
Definition splay_move_to (buffer : nat) nodes (root out : nat) : M A unit :=
  let* curr := leftmost nodes root in
  move_value buffer curr out ;;
  loop (S (length nodes)) (fun '(nodes, curr, out) =>
    let* n := rd nodes curr in
    let* rc := deref (right_child n) in
    let* par := deref (parent n) in
    if negb (rc =? sentinel) then
      let prev := curr in
      let* nodes := set_parent nodes rc (parent n) in
      let* nodes := set_right nodes prev to_sentinel in
      let* curr := leftmost nodes rc in
      move_value buffer curr out ;;
      ret (inl (nodes, curr, S out))
    else if negb (par =? sentinel) then
      let curr := par in
      move_value buffer curr out ;;
      ret (inl (nodes, curr, S out))
    else ret (inr tt)) (nodes, curr, S out).

(** detail/splaysort.h:253-272.  The destructor of the tree destroys the nodes of the buffer (detail/immovable_vector.h:57-68). *)
Definition splaysort (first last size : nat) : M A unit :=
  if size <? 2 then ret tt else
  let* buffer := alloc size in
  let* (nodes, root) := splay_tree buffer first last in
  splay_move_to buffer nodes root first ;;
  destroy_n buffer (length nodes - 1) ;;
  dealloc buffer size.

(** sorters/splay_sorter.h:30-82. *)
Definition splay_sorter : range_prog A := fun first last => splaysort first last (last - first).
End Model.
