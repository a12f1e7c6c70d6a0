(** std::list and std::forward_list, as the container-aware sorts use them.

    A node is an identity and a value: moving a node from a place to another keeps its identity, and the iterators to it.  A collection is
    the sequence of its nodes; an iterator is the position before the beginning (of a forward list), a node, or the end. *)
From Coq Require Import List Arith Bool.
Import ListNotations.

(** The outcome of a program: a value, undefined behaviour, or a loop which exceeded its fuel. *)
Inductive out (X : Type) : Type :=
| Done (x : X)
| Undefined
| Exhausted.
Arguments Done {X} x.
Arguments Undefined {X}.
Arguments Exhausted {X}.

Definition andthen {X Y} (c : out X) (k : X -> out Y) : out Y :=
  match c with Done x => k x | Undefined => Undefined | Exhausted => Exhausted end.
Declare Scope lists_scope.
Delimit Scope lists_scope with lists.
Notation "'let!' x ':=' c 'in' k" := (andthen c (fun x => k))
  (at level 200, x pattern, c at level 100, k at level 200, right associativity) : lists_scope.
Open Scope lists_scope.

(** A loop: [inl] to go on, [inr] to leave. *)
Fixpoint iter {S X : Type} (fuel : nat) (body : S -> out (S + X)) (s : S) : out X :=
  match fuel with
  | 0 => Exhausted
  | Datatypes.S fuel => let! r := body s in match r with inl s => iter fuel body s | inr x => Done x end
  end.

Notation node A := (nat * A)%type.
Inductive pos := Before | At (id : nat) | End.

Definition pos_eqb (p q : pos) : bool :=
  match p, q with Before, Before => true | At i, At j => i =? j | End, End => true | _, _ => false end.

Section Ops.
Context {A : Type}.
Implicit Types (l o : list (node A)).

(** The index of a node. *)
Fixpoint find_index (id : nat) l : option nat :=
  match l with
  | [] => None
  | (i, _) :: t => if i =? id then Some 0 else match find_index id t with Some k => Some (S k) | None => None end
  end.
Definition index l (p : pos) : option nat := match p with Before => None | At i => find_index i l | End => Some (length l) end.
(** The iterator to the node with a given index. *)
Definition pos_at l (k : nat) : pos := match nth_error l k with Some (i, _) => At i | None => End end.

(** [begin], [operator++], [std::next], [operator*]; [operator++] on the end is undefined, and so is using an iterator to a node which is not in the list. *)
Definition begin_ l : pos := pos_at l 0.
Definition next l (p : pos) : out pos :=
  match p with
  | Before => Done (pos_at l 0)
  | _ => match index l p with Some k => if k <? length l then Done (pos_at l (S k)) else Undefined | None => Undefined end
  end.
Fixpoint advance l (n : nat) (p : pos) : out pos :=
  match n with 0 => Done p | S n => let! p := next l p in advance l n p end.
Definition deref l (p : pos) : out A :=
  match index l p with Some k => match nth_error l k with Some (_, a) => Done a | None => Undefined end | None => Undefined end.
Definition front l : out A := match l with (_, a) :: _ => Done a | [] => Undefined end.
Definition back l : out A := match rev l with (_, a) :: _ => Done a | [] => Undefined end.

(** The node with a given index is taken out, or a node is put in there. *)
Definition remove_at (k : nat) l := firstn k l ++ skipn (S k) l.
Definition insert_at (k : nat) (x : node A) l := firstn k l ++ x :: skipn k l.

(** [l.splice(p, l, it)]. *)
Definition splice_within l (p it : pos) : out (list (node A)) :=
  match index l p, index l it with
  | Some k, Some j =>
      match nth_error l j with
      | Some x => Done (insert_at (if j <? k then k - 1 else k) x (remove_at j l))
      | None => Undefined
      end
  | _, _ => Undefined
  end.

(** The index of the node after a position of a forward list. *)
Definition index_after l (p : pos) : option nat :=
  match p with Before => Some 0 | At i => match find_index i l with Some k => Some (S k) | None => None end | End => None end.
(** [l.splice_after(p, l, it)]: the node after [it] goes after [p]. *)
Definition splice_after_within l (p it : pos) : out (list (node A)) :=
  match index_after l p, index_after l it with
  | Some k, Some j =>
      match nth_error l j with
      | Some x => Done (insert_at (if j <? k then k - 1 else k) x (remove_at j l))
      | None => Undefined
      end
  | _, _ => Undefined
  end.

(** [l.splice(p, o, it)] and [l.splice_after(p, o, it)], from another list: the new [l] and the new [o]. *)
Definition splice_from l (p : pos) o (it : pos) : out (list (node A) * list (node A)) :=
  match index l p, index o it with
  | Some k, Some j => match nth_error o j with Some x => Done (insert_at k x l, remove_at j o) | None => Undefined end
  | _, _ => Undefined
  end.
Definition splice_after_from l (p : pos) o (it : pos) : out (list (node A) * list (node A)) :=
  match index_after l p, index_after o it with
  | Some k, Some j => match nth_error o j with Some x => Done (insert_at k x l, remove_at j o) | None => Undefined end
  | _, _ => Undefined
  end.

(** The nodes with indices from [i] to [j] excluded go from [o] to the index [k] of [l]. *)
Definition move_nodes l (k : nat) o (i j : nat) : out (list (node A) * list (node A)) :=
  if (i <=? j) && (j <=? length o) then Done (firstn k l ++ firstn (j - i) (skipn i o) ++ skipn k l, firstn i o ++ skipn j o) else Undefined.
(** [l.splice(p, o, first, last)] and [l.splice_after(p, o, first, last)]. *)
Definition splice_range l (p : pos) o (first last : pos) : out (list (node A) * list (node A)) :=
  match index l p, index o first, index o last with Some k, Some i, Some j => move_nodes l k o i j | _, _, _ => Undefined end.
Definition splice_after_range l (p : pos) o (first last : pos) : out (list (node A) * list (node A)) :=
  match index_after l p, index_after o first, index o last with Some k, Some i, Some j => move_nodes l k o i j | _, _, _ => Undefined end.

(** [l.merge(o, comp)] is undefined unless both lists are sorted; of two equivalent elements, that of [l] comes first. *)
Fixpoint in_order (lt : A -> A -> bool) l : bool :=
  match l with
  | (_, a) :: t => match t with (_, b) :: _ => negb (lt b a) | [] => true end && in_order lt t
  | _ => true
  end.
Fixpoint merge_nodes (lt : A -> A -> bool) l : list (node A) -> list (node A) :=
  fix go o :=
  match l, o with
  | [], _ => o
  | _, [] => l
  | x :: l', y :: o' => if lt (snd y) (snd x) then y :: go o' else x :: merge_nodes lt l' o
  end.
Definition merge_with (lt : A -> A -> bool) l o : out (list (node A)) :=
  if in_order lt l && in_order lt o then Done (merge_nodes lt l o) else Undefined.
End Ops.
