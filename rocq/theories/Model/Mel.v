(** Encroaching lists and melsort (detail/melsort.h), with the merges of detail/fixed_size_list.h.

    A list is known by its sentinel node.  Moving a list to another place (lines 435-472, when the vector of lists
    grows or when [std::remove_if] shifts it) relinks its nodes to the new address of its sentinel; here the sentinel keeps its index, and
    moving a list does nothing.  The vector of lists is the list of the sentinels. *)
From Coq Require Import List Arith Bool.
From Verif Require Import Lang.Mem Model.Indirect Model.Select Model.FixedList.
Import ListNotations.

Section Lists.
Context {A V : Type}.
Implicit Types (p : node_pool V) (ns : list (list_node V)).

(** detail/fixed_size_list.h:496-510: [front] and [back]. *)
Definition list_front p (s : nat) : M A V := let* n := rd (nodes p) s in let* i := pointee (next n) in list_deref p i.
Definition list_back p (s : nat) : M A V := let* n := rd (nodes p) s in let* i := pointee (prev n) in list_deref p i.

(** detail/fixed_size_list.h:534-538. *)
Definition list_is_empty p (s : nat) : M A bool := let* n := rd (nodes p) s in let* i := pointee (next n) in ret (i =? s).

(** detail/fixed_size_list.h:560-564, 580-584. *)
Definition push_back p (s : nat) (v : V) : M A (node_pool V) := let* (_, p) := insert_node p s v in ret p.
Definition push_front p (s : nat) (v : V) : M A (node_pool V) :=
  let* n := rd (nodes p) s in let* i := pointee (next n) in let* (_, p) := insert_node p i v in ret p.

(** detail/fixed_size_list.h:595-604. *)
Definition extract p (s node : nat) : M A (node_pool V) :=
  let* e := list_is_empty p s in
  assert (negb (node =? s)) ;; assert (negb e) ;;
  let* n := rd (nodes p) node in
  let* before := pointee (prev n) in
  let* ns := set_next (nodes p) before (next n) in
  let* n := rd ns node in
  let* after := pointee (next n) in
  let* ns := set_prev ns after (prev n) in
  ret (with_nodes p ns).

(** detail/fixed_size_list.h:613-625. *)
Definition extract_back p (s : nat) : M A (nat * node_pool V) :=
  let* n := rd (nodes p) s in let* i := pointee (prev n) in let* p := extract p s i in ret (i, p).
Definition extract_front p (s : nat) : M A (nat * node_pool V) :=
  let* n := rd (nodes p) s in let* i := pointee (next n) in let* p := extract p s i in ret (i, p).

(** detail/fixed_size_list.h:836-855. *)
Definition fast_splice ns (pos first last : nat) : M A (list (list_node V)) :=
  assert (negb (first =? last)) ;;
  let* n := rd ns pos in
  let* before := pointee (prev n) in
  let* ns := set_next ns before (Some first) in
  let* n := rd ns pos in
  let* ns := set_prev ns first (prev n) in
  let* l := rd ns last in
  let* ns := set_prev ns pos (prev l) in
  let* l := rd ns last in
  let* last_1 := pointee (prev l) in
  set_next ns last_1 (Some pos).

(** detail/fixed_size_list.h:745-774, on the whole of the list [o]. *)
Definition splice p (pos o : nat) : M A (node_pool V) :=
  let* e := list_is_empty p o in
  if e then ret p else
  let* first := list_begin p o in
  assert (negb (first =? o)) ;;
  let* l := rd (nodes p) o in
  let* last_1 := pointee (prev l) in
  let* f := rd (nodes p) first in
  let* before := pointee (prev f) in
  let* ns := set_next (nodes p) before (Some o) in
  let* f := rd ns first in
  let* ns := set_prev ns o (prev f) in
  let* q := rd ns pos in
  let* before := pointee (prev q) in
  let* ns := set_next ns before (Some first) in
  let* q := rd ns pos in
  let* ns := set_prev ns first (prev q) in
  let* ns := set_prev ns pos (Some last_1) in
  let* ns := set_next ns last_1 (Some pos) in
  ret (with_nodes p ns).

(** The lists of the vector are destroyed. *)
Definition destroy_lists p (lists : list nat) : M A (node_pool V) :=
  loop (S (length lists)) (fun '(i, p) =>
    if i =? length lists then ret (inr p) else
    let* l := rd lists i in
    let* p := destroy_list p l in
    ret (inl (S i, p))) (0, p).
End Lists.

Section Model.
Context {A T : Type} (comp : T -> T -> bool) (proj : A -> T).
Implicit Types (p : node_pool A) (ns : list (list_node A)).

(** comp(proj( *x ), proj( *y )) on list iterators. *)
Definition node_less p (x y : nat) : M A bool :=
  let* a := list_deref p x in let* b := list_deref p y in ret (comp (proj a) (proj b)).

(** detail/fixed_size_list.h:666-668, 704-707: the end of the nodes to splice before [first], and the last of them. *)
Definition run_end p (first other_it other_end : nat) : M A (nat * nat) :=
  loop (S (length (nodes p))) (fun other_it =>
    let insert_last := other_it in
    let* other_it := list_next p other_it in
    if other_it =? other_end then ret (inr (insert_last, other_it)) else
    let* b := node_less p other_it first in
    ret (if b then inl other_it else inr (insert_last, other_it))) other_it.

(** detail/fixed_size_list.h:680-683, 691-694, 719-722, 731-734. *)
Definition reset_sentinel p (o : nat) : M A (node_pool A) :=
  let* ns := set_next (nodes p) o (Some o) in
  let* ns := set_prev ns o (Some o) in
  ret (with_nodes p ns).

(** detail/fixed_size_list.h:636-695: [merge], on the whole of the list [s]. *)
Definition merge_lists p (s o : nat) : M A (node_pool A) :=
  let* first := list_begin p s in
  if first =? s then splice p s o else
  let* e := list_is_empty p o in
  if e then ret p else
  let* other_it := list_begin p o in
  let* p := loop (S (2 * length (nodes p))) (fun '(first, other_it, p) =>
    let* b := node_less p other_it first in
    let* (first, other_it, p) :=
      if b then
        let* (_, it) := run_end p first other_it o in
        let* ns := fast_splice (nodes p) first other_it it in
        ret (first, it, with_nodes p ns)
      else
        let* first := list_next p first in
        ret (first, other_it, p) in
    if first =? s then
      let* ns := fast_splice (nodes p) s other_it o in
      ret (inr (with_nodes p ns))
    else if other_it =? o then ret (inr p) else ret (inl (first, other_it, p))) (first, other_it, p) in
  reset_sentinel p o.

(** detail/fixed_size_list.h:697-743: [merge_unsafe]. *)
Definition merge_lists_unsafe p (s o : nat) : M A (node_pool A) :=
  let* e := list_is_empty p s in
  if e then splice p s o else
  let* e := list_is_empty p o in
  if e then ret p else
  let* first := list_begin p s in
  let* other_it := list_begin p o in
  let* p := loop (S (2 * length (nodes p))) (fun '(first, other_it, p) =>
    if other_it =? o then ret (inr p) else
    let* b := node_less p other_it first in
    let* (first, other_it, p) :=
      if b then
        let* (insert_last, it) := run_end p first other_it o in
        let* n := rd (nodes p) first in
        let* before := pointee (prev n) in
        let* ns := set_next (nodes p) before (Some other_it) in
        let* ns := set_next ns insert_last (Some first) in
        ret (first, it, with_nodes p ns)
      else
        let* first := list_next p first in
        ret (first, other_it, p) in
    if first =? s then
      let* l := rd (nodes p) s in
      let* before := pointee (prev l) in
      let* ns := set_next (nodes p) before (Some other_it) in
      let* l := rd ns o in
      let* before := pointee (prev l) in
      let* ns := set_next ns before (Some s) in
      ret (inr (with_nodes p ns))
    else ret (inl (first, other_it, p))) (first, other_it, p) in
  reset_sentinel p o.

(** The value of a node is moved away. *)
Definition node_take p (it : nat) : M A (A * node_pool A) :=
  let* v := list_deref p it in
  let* ns := set_value (nodes p) it Moved in
  ret (v, with_nodes p ns).

(** detail/move.h:71-84: [move], from a list.  The result is the output iterator. *)
Definition list_move p (first last result : nat) : M A (node_pool A * nat) :=
  loop (S (length (nodes p))) (fun '(first, p, result) =>
    if first =? last then ret (inr (p, result)) else
    let* (v, p) := node_take p first in
    put result v ;;
    let* first := list_next p first in
    ret (inl (first, p, S result))) (first, p, result).

(** detail/merge_move.h:22-68, from two lists to the collection. *)
Definition list_merge_move p (first1 last1 first2 last2 result : nat) : M A (node_pool A) :=
  if first1 =? last1 then let* (p, _) := list_move p first2 last2 result in ret p else
  if first2 =? last2 then let* (p, _) := list_move p first1 last1 result in ret p else
  loop (S (length (nodes p))) (fun '(first1, first2, p, result) =>
    let* b := node_less p first2 first1 in
    if b then
      let* (v, p) := node_take p first2 in
      put result v ;;
      let* first2 := list_next p first2 in
      if first2 =? last2 then let* (p, _) := list_move p first1 last1 (S result) in ret (inr p)
      else ret (inl (first1, first2, p, S result))
    else
      let* (v, p) := node_take p first1 in
      put result v ;;
      let* first1 := list_next p first1 in
      if first1 =? last1 then let* (p, _) := list_move p first2 last2 (S result) in ret (inr p)
      else ret (inl (first1, first2, p, S result))) (first1, first2, p, result).

(** detail/melsort.h:48-75: the list [edges] is made of the heads and of the tails of the lists.  The lists that are empty afterwards are
    removed from [lists]. *)
Definition extract_edges p (lists : list nat) (edges : nat) : M A (list nat * node_pool A) :=
  let* (insert_node, p) := loop (S (length lists)) (fun '(i, insert_node, p) =>
    if i =? length lists then ret (inr (insert_node, p)) else
    let* l := rd lists i in
    let* (node, p) := extract_front p l in
    let* ns := set_next (nodes p) insert_node (Some node) in
    ret (inl (S i, node, with_nodes p ns))) (0, edges, p) in
  let* back := rd lists (length lists - 1) in
  let* e := list_is_empty p back in
  let lists := if e then removelast lists else lists in
  let* (insert_node, p) := loop (S (length lists)) (fun '(i, insert_node, p) =>
    if i =? 0 then ret (inr (insert_node, p)) else
    let* l := rd lists (i - 1) in
    let* (node, p) := extract_back p l in
    let* ns := set_next (nodes p) insert_node (Some node) in
    ret (inl (i - 1, node, with_nodes p ns))) (length lists, insert_node, p) in
  let* ns := set_next (nodes p) insert_node (Some edges) in
  let* ns := set_prev ns edges (Some insert_node) in
  let p := with_nodes p ns in
  let* lists := loop (S (length lists)) (fun '(i, kept) =>
    if i =? length lists then ret (inr kept) else
    let* l := rd lists i in
    let* e := list_is_empty p l in
    ret (inl (S i, if e then kept else kept ++ [l]))) (0, []) in
  ret (lists, p).

(** detail/melsort.h:79-95: the lists are merged until there are at most two of them.  The lists taken away from the vector are destroyed. *)
Definition merge_pairwise p (lists : list nat) : M A (list nat * node_pool A) :=
  loop (S (length lists)) (fun '(lists, p) =>
    if 2 <? length lists then
      let* (lists, p) :=
        if negb (length lists mod 2 =? 0) then
          let* last := rd lists (length lists - 1) in
          let* last_1 := rd lists (length lists - 2) in
          let* p := merge_lists p last_1 last in
          let* p := destroy_list p last in
          ret (removelast lists, p)
        else ret (lists, p) in
      let half := length lists / 2 in
      let* p := loop (S half) (fun '(i, p) =>
        if half + i =? length lists then ret (inr p) else
        let* first := rd lists i in
        let* other := rd lists (half + i) in
        let* p := merge_lists p first other in
        ret (inl (S i, p))) (0, p) in
      let* p := loop (S half) (fun '(i, p) =>
        if half + i =? length lists then ret (inr p) else
        let* other := rd lists (half + i) in
        let* p := destroy_list p other in
        ret (inl (S i, p))) (0, p) in
      ret (inl (firstn half lists, p))
    else ret (inr (lists, p))) (lists, p).

(** detail/melsort.h:28-118.  The list [edges] is destroyed as soon as its nodes have been moved to another list; the code destroys it at the
    end of the function. *)
Definition merge_encroaching_lists p (lists : list nat) (first : nat) (with_edges : bool) : M A (list nat * node_pool A) :=
  let '(edges, p) := new_list p in
  let* (lists, p) := if with_edges then extract_edges p lists edges else ret (lists, p) in
  let* (lists, p) := merge_pairwise p lists in
  let* (lists, p) :=
    if with_edges then
      if length lists =? 0 then ret ([edges], p)
      else
        let* back := rd lists (length lists - 1) in
        let* p := merge_lists_unsafe p back edges in
        let* p := destroy_list p edges in
        ret (lists, p)
    else
      let* p := destroy_list p edges in ret (lists, p) in
  match lists with
  | [l1; l2] =>
      let* b1 := list_begin p l1 in
      let* b2 := list_begin p l2 in
      let* p := list_merge_move p b1 l1 b2 l2 first in ret (lists, p)
  | [l] =>
      let* b := list_begin p l in
      let* (p, _) := list_move p b l first in ret (lists, p)
  | _ => ret (lists, p)
  end.

(** comparators/flip.h. *)
Definition flip_comp : T -> T -> bool := fun x y => comp y x.

(** The lists hold either elements (detail/melsort.h) or iterators to elements (detail/slabsort.h, first half of try_melsort): [elem] gives
    the element for what a node holds, and [make] makes the contents of a node from an iterator. *)
Section Build.
Context {V : Type} (elem : V -> M A A) (make : nat -> M A V).

(** detail/lower_bound.h:21-51, on a vector of lists; [key] gives the node whose element is compared. *)
Definition lists_lower_bound (comp : T -> T -> bool) (key : nat -> M A V) (lists : list nat) (last : nat) (value : T) : M A nat :=
  loop (S last) (fun '(first, size) =>
    if 0 <? size then
      let it := first + size / 2 in
      let* l := rd lists it in
      let* w := key l in
      let* x := elem w in
      if comp (proj x) value then ret (inl (S it, size - (size / 2 + 1)))
      else ret (inl (first, size / 2))
    else ret (inr first)) (0, last).

(** detail/melsort.h:147-186, detail/slabsort.h:152-183: the element at [it] is added to the lists. *)
Definition add_to_lists (np : node_pool V) (lists : list nat) (it : nat) : M A (list nat * node_pool V) :=
  let* value := get it in
  let* last_list := rd lists (length lists - 1) in
  let* w := list_back np last_list in
  let* back := elem w in
  if negb (comp (proj value) (proj back)) then
    let* i := lists_lower_bound flip_comp (list_back np) lists (length lists - 1) (proj value) in
    let* l := rd lists i in
    let* v := make it in
    let* np := push_back np l v in
    ret (lists, np)
  else
    let* w := list_front np last_list in
    let* front := elem w in
    if negb (comp (proj front) (proj value)) then
      let* i := lists_lower_bound comp (list_front np) lists (length lists - 1) (proj value) in
      let* l := rd lists i in
      let* v := make it in
      let* np := push_front np l v in
      ret (lists, np)
    else
      let '(l, np) := new_list np in
      let* v := make it in
      let* np := push_back np l v in
      ret (lists ++ [l], np).
End Build.

(** detail/melsort.h:120-200.  [lists.size() > std::sqrt(size)] is computed without rounding. *)
Definition melsort (first last size : nat) : M A unit :=
  if (first =? last) || (S first =? last) then ret tt else
  let* p := new_pool size in
  let '(l, p) := new_list p in
  let* v := take first in
  let* p := push_back p l v in
  let* (lists, p) := loop (S (last - first)) (fun '(it, lists, p) =>
    if it =? last then ret (inr (lists, p)) else
    let* (lists, p) := add_to_lists ret take p lists it in
    ret (inl (S it, lists, p))) (S first, [l], p) in
  let bad_distribution := size <? length lists * length lists in
  let* (lists, p) := merge_encroaching_lists p lists first bad_distribution in
  let* _ := destroy_lists p lists in
  ret tt.

(** sorters/mel_sorter.h:40-80. *)
Definition mel_sorter : range_prog A := fun first last => melsort first last (last - first).
End Model.
