(** Smoothsort. *)
From Coq Require Import List Arith Bool NArith.
From Verif Require Import Lang.Mem Model.Basic Model.Insertion.
Import ListNotations.

(** detail/smoothsort.h:46-66, the constant table. *)
Definition leonardo_table : list N := [
  1; 1; 3; 5; 9; 15; 25; 41; 67; 109; 177; 287; 465; 753;
  1219; 1973; 3193; 5167; 8361; 13529; 21891; 35421; 57313;
  92735; 150049; 242785; 392835; 635621; 1028457; 1664079;
  2692537; 4356617; 7049155; 11405773; 18454929; 29860703;
  48315633; 78176337; 126491971; 204668309; 331160281; 535828591;
  866988873; 1402817465; 2269806339; 3672623805; 5942430145;
  9615053951; 15557484097; 25172538049; 40730022147; 65902560197;
  106632582345; 172535142543; 279167724889; 451702867433;
  730870592323; 1182573459757; 1913444052081; 3096017511839;
  5009461563921; 8105479075761; 13114940639683; 21220419715445;
  34335360355129; 55555780070575; 89891140425705; 145446920496281;
  235338060921987; 380784981418269; 616123042340257; 996908023758527;
  1613031066098785; 2609939089857313; 4222970155956099; 6832909245813413;
  11055879401769513; 17888788647582927; 28944668049352441;
  46833456696935369; 75778124746287811; 122611581443223181;
  198389706189510993; 321001287632734175; 519390993822245169;
  840392281454979345; 1359783275277224515; 2200175556732203861;
  3559958832009428377; 5760134388741632239; 9320093220751060617;
  15080227609492692857 ]%N.

(** The Leonardo numbers, of which the table holds the first 92; the code below reads this function where the C++ code reads the
    table.  Props/Smooth.v proves that they agree and that no range of less than 2^64 elements needs an index beyond the table. *)
Fixpoint leo (n : nat) : nat :=
  match n with
  | 0 => 1
  | S n1 => match n1 with 0 => 1 | S n2 => S (leo n1 + leo n2) end
  end.

(** detail/smoothsort.h:72-78.  The bits of the bitset, bit 0 first; the bits after the end of the list are zeros.  The bitset has 92
    bits, the list has no limit. *)
Definition shape := (list bool * nat)%type.
Definition bit (i : nat) (ts : list bool) : bool := nth i ts false.
Definition set_bit0 (ts : list bool) : list bool := true :: tl ts.
Definition any (ts : list bool) : bool := existsb (fun b => b) ts.

(** detail/smoothsort.h:269-272 and 424-427, the scans for the next tree after the first shift. *)
Fixpoint scan (ts : list bool) (k : nat) : shape :=
  match ts with
  | [] => ([], k)
  | b :: ts' => if b then (ts, k) else if any ts' then scan ts' (S k) else (ts, k)
  end.

(** detail/smoothsort.h:88-93 and 103-110. *)
Definition second_child (root : nat) : nat := root - 1.
Definition first_child (root size : nat) : nat := second_child root - leo (size - 2).

(** detail/smoothsort.h:306-352.  A shift by [smallestTreeSize - 1] with [smallestTreeSize = 0] is an undefined outcome here. *)
Definition shape_add (sh : shape) : option shape :=
  let '(ts, k) := sh in
  if negb (bit 0 ts) then Some (set_bit0 ts, 1)
  else if bit 1 ts && bit 0 ts then Some (set_bit0 (tl (tl ts)), k + 2)
  else if k =? 1 then Some (set_bit0 (false :: ts), 0)
  else if k =? 0 then None
  else Some (set_bit0 (repeat false (k - 1) ++ ts), 1).

(** detail/smoothsort.h:421-439. *)
Definition shape_remove (sh : shape) : shape :=
  let '(ts, k) := sh in
  if k <=? 1 then scan (tl ts) (S k) else
  let ts := false :: tl ts in
  let ts := false :: false :: ts in
  let ts := true :: true :: tl (tl ts) in
  (ts, k - 2).

(** detail/smoothsort.h:358-384. *)
Definition is_last (sh : shape) (end_ heap_end : nat) : bool :=
  let '(ts, k) := sh in
  match k with
  | 0 => end_ + 1 =? heap_end
  | 1 => (end_ + 1 =? heap_end) || ((end_ + 2 =? heap_end) && negb (bit 1 ts))
  | _ => heap_end - (end_ + 1) <? leo (k - 1) + 1
  end.

Section Model.
Context {A T : Type} (comp : T -> T -> bool) (proj : A -> T).
Notation less := (less_at comp proj).

(** detail/smoothsort.h:121-134. *)
Definition larger_child (root size : nat) : M A nat :=
  let first := first_child root size in
  let second := second_child root in
  let* c := less first second in
  ret (if (c : bool) then second else first).

(** detail/smoothsort.h:145-181. *)
Definition rebalance_single_heap (root size : nat) : M A unit :=
  loop (S size) (fun '(root, size) =>
    if 1 <? size then
      let first := first_child root size in
      let second := second_child root in
      let* c := less first second in
      let '(larger, child_size) := if (c : bool) then (second, size - 2) else (first, size - 1) in
      let* c := less root larger in
      if (c : bool) then swap root larger ;; ret (inl (larger, child_size))
      else ret (inr tt)
    else ret (inr tt)) (root, size).

(** detail/smoothsort.h:195-277.  The scan at 269-272 does not end if no tree is left. *)
Definition leonardo_heap_rectify (begin end_ : nat) (sh : shape) : M A unit :=
  let* (itr, last_heap_size) := loop (S (length (fst sh))) (fun '(itr, ts, k) =>
    if itr - begin =? leo k - 1 then ret (inr (itr, k)) else
    let* to_compare :=
      (if 1 <? k then
         let* large_child := larger_child itr k in
         let* c := less itr large_child in
         ret (if (c : bool) then large_child else itr)
       else ret itr) in
    let prior_heap := itr - leo k in
    let* c := less to_compare prior_heap in
    if (c : bool) then
      swap itr prior_heap ;;
      if any (tl ts) then
        let '(ts, k) := scan (tl ts) (S k) in
        ret (inl (prior_heap, ts, k))
      else nofuel
    else ret (inr (itr, k))) (end_ - 1, fst sh, snd sh) in
  rebalance_single_heap itr last_heap_size.

(** detail/smoothsort.h:289-394. *)
Definition leonardo_heap_add (begin end_ heap_end : nat) (sh : shape) : M A shape :=
  match shape_add sh with
  | None => ub
  | Some sh =>
    (if negb (is_last sh end_ heap_end) then rebalance_single_heap end_ (snd sh)
     else leonardo_heap_rectify begin (end_ + 1) sh) ;;
    ret sh
  end.

(** detail/smoothsort.h:408-463. *)
Definition leonardo_heap_remove (begin end_ : nat) (sh : shape) : M A shape :=
  if snd sh <=? 1 then ret (shape_remove sh) else
  let heap_order := snd sh in
  let sh := shape_remove sh in
  let left_heap := first_child (end_ - 1) heap_order in
  let right_heap := second_child (end_ - 1) in
  let all_but_last := (tl (fst sh), S (snd sh)) in
  leonardo_heap_rectify begin (left_heap + 1) all_but_last ;;
  leonardo_heap_rectify begin (right_heap + 1) sh ;;
  ret sh.

(** detail/smoothsort.h:468-488, the two loops. *)
Definition smoothsort : range_prog A := fun begin end_ =>
  if end_ - begin <? 2 then ret tt else
  let* sh := loop (S (end_ - begin)) (fun '(itr, sh) =>
    if itr =? end_ then ret (inr sh) else
    let* sh := leonardo_heap_add begin itr end_ sh in
    ret (inl (S itr, sh))) (begin, (@nil bool, 0)) in
  loop (S (end_ - begin)) (fun '(itr, sh) =>
    if itr =? begin then ret (inr tt) else
    let* sh := leonardo_heap_remove begin itr sh in
    ret (inl (itr - 1, sh))) (end_, sh).

(** sorters/smooth_sorter.h:30-42. *)
Definition smooth_sorter : range_prog A := smoothsort.
End Model.
