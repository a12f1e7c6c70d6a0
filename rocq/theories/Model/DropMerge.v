(** Drop-merge sort and split sort. *)
From Coq Require Import List Arith Bool.
From Verif Require Import Lang.Mem Model.Basic Model.Insertion Model.Rotate Model.Buffer Model.Merge Model.Indirect Model.Pdq.
Import ListNotations.

Section Model.
Context {A T : Type} (comp : T -> T -> bool) (proj : A -> T).
Notation less := (less_at comp proj).

Section DropMerge.
(** Is the rvalue type trivially copyable? *)
Variable triv : bool.

(** [iter_move(it)] whose result initialises a new object.  An object of a trivially copyable type keeps its value. *)
Definition mv (i : nat) : M A A := if triv then get i else take i.

(** detail/drop_merge_sort.h:90-99: put the last [num] dropped elements back; [read] decreases.  The vector [dropped] is a list, last
    element first; popping an empty vector is undefined. *)
Fixpoint undo (num read : nat) (dropped : list A) : M A (nat * list A) :=
  match num with
  | 0 => ret (read, dropped)
  | S num =>
    let read := read - 1 in
    match dropped with
    | [] => ub
    | x :: dropped =>
      (if triv then ret tt else put read x) ;;
      undo num read dropped
    end
  end.

(** detail/drop_merge_sort.h:68-69: dropped, num_dropped_in_row, write, read. *)
Definition drop_state := (list A * nat * nat * nat)%type.

(** detail/drop_merge_sort.h:75-119, one iteration. *)
Definition drop_step (begin : nat) : drop_state -> M A drop_state := fun '(dropped, num, write, read) =>
  let* c := (if begin =? write then ret false else less read (write - 1)) in
  if (c : bool) then
    let* d := (if (num =? 0) && negb (write =? S begin) then let* c := less read (write - 2) in ret (negb c) else ret false) in
    if (d : bool) then
      let* x := mv (write - 1) in
      let* y := mv read in
      put (write - 1) y ;;
      ret (x :: dropped, num, write, S read)
    else if num <? 8 then
      let* x := mv read in
      ret (x :: dropped, S num, write, S read)
    else
      let* (read, dropped) := undo num read dropped in
      let write := write - 1 in
      let* x := mv write in
      ret (x :: dropped, 0, write, read)
  else
    (if triv then let* x := get read in put write x
     else if negb (read =? write) then move_to read write else ret tt) ;;
    ret (dropped, 0, S write, S read).

(** detail/drop_merge_sort.h:74-120. *)
Definition drop_loop (begin end_ : nat) : M A drop_state :=
  let n := S (end_ - begin) in
  loop (S (n * n)) (fun s =>
    let* s := drop_step begin s in
    ret (if snd s =? end_ then inr s else inl s)) ([], 0, begin, begin).

(** detail/drop_merge_sort.h:135-139. *)
Definition merge_back_shift (begin : nat) (last_dropped : A) (back write : nat) : M A (nat * nat) :=
  loop (S write) (fun '(back, write) =>
    if begin =? write then ret (inr (back, write)) else
    let* y := get (write - 1) in
    if comp (proj last_dropped) (proj y) then
      let* x := mv (write - 1) in
      put (back - 1) x ;;
      ret (inl (back - 1, write - 1))
    else ret (inr (back, write))) (back, write).

(** detail/drop_merge_sort.h:131-143; [dropped] last first. *)
Fixpoint merge_back (begin : nat) (dropped : list A) (back write : nat) : M A unit :=
  match dropped with
  | [] => ret tt
  | last_dropped :: dropped =>
    let* (back, write) := merge_back_shift begin last_dropped back write in
    let back := back - 1 in
    put back last_dropped ;;
    merge_back begin dropped back write
  end.

(** detail/drop_merge_sort.h:51-144; adapters/drop_merge_adapter.h:47-62.  [inner] is the adapted sorter, called on the vector of the
    dropped elements. *)
Definition drop_merge_adapter (inner : range_prog A) : range_prog A := fun begin end_ =>
  if (begin =? end_) || (S begin =? end_) then ret tt else
  let* (dropped, num, write, read) := drop_loop begin end_ in
  match dropped with
  | [] => ret tt
  | _ :: _ =>
    let* dropped := sort_vector inner (rev dropped) in
    merge_back begin (rev dropped) end_ write
  end.
End DropMerge.

(** sorters/drop_merge_sorter.h:19-34. *)
Definition drop_merge_sorter (triv lenient branchless : bool) : range_prog A :=
  drop_merge_adapter triv (pdq_sorter comp proj lenient branchless).

(** detail/split_sort.h:45-58: the last element of the first part. *)
Definition split_loop (first last : nat) : M A nat :=
  loop (S (last - first)) (fun '(middle, reader) =>
    if reader =? last then ret (inr middle) else
    let* c := less reader middle in
    if (c : bool) then ret (inl (if negb (middle =? first) then middle - 1 else middle, S reader))
    else
      let middle := S middle in
      swap middle reader ;;
      ret (inl (middle, S reader))) (first, S first).

(** detail/split_sort.h:27-63; adapters/split_adapter.h:47-62.  [cat] is the category of the iterators, bidirectional or random-access. *)
Definition split_adapter (cat : category) (triv : bool) (o : oracle) (inner : range_prog A) : range_prog A := fun first last =>
  if (first =? last) || (S first =? last) then ret tt else
  let* middle := split_loop first last in
  inner middle last ;;
  inplace_merge comp proj cat triv o first middle last.

(** sorters/split_sorter.h:22-47. *)
Definition split_sorter (triv : bool) (o : oracle) (lenient branchless : bool) : range_prog A :=
  split_adapter RandomAccess triv o (pdq_sorter comp proj lenient branchless).
End Model.
