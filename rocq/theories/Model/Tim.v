(** Timsort and adaptive Shivers sort (detail/timsort.h). *)
From Coq Require Import List Arith Bool ZArith.
From Verif Require Import Lang.Mem Model.Basic Model.Rotate Model.Search Model.Buffer Model.Select.
Import ListNotations.

Section Model.
Context {A T : Type} (comp : T -> T -> bool) (proj : A -> T).
Notation less := (less_at comp proj).
(** Are the assertions of lines 568, 718 ("comparison function violates its general contract") and of the two lines after each checked?
    They are the only ones that depend on the comparison function.  The others are always checked. *)
Variable strict : bool.

(** detail/timsort.h:158-160: move [pivot], taken from [start], to its place. *)
Definition binary_shift (pos start : nat) : M A unit :=
  loop (S start) (fun p =>
    if pos <? p then move_to (p - 1) p ;; ret (inl (p - 1)) else ret (inr tt)) start.

(** detail/timsort.h:140-163. *)
Definition binary_sort (lo hi start : nat) : M A unit :=
  assert (lo <=? start) ;;
  assert (start <=? hi) ;;
  let start := if start =? lo then S start else start in
  loop (S (hi - lo)) (fun start =>
    if start <? hi then
      assert (lo <=? start) ;;
      let* pivot := take start in
      let* pos := upper_bound comp proj lo start (proj pivot) in
      binary_shift pos start ;;
      put pos pivot ;;
      ret (inl (S start))
    else ret (inr tt)) start.

(** detail/timsort.h:179-181 ([desc] is true) or 184-186: the end of the run. *)
Definition run_end (desc : bool) (hi run_hi : nat) : M A nat :=
  loop (S (hi - run_hi)) (fun run_hi =>
    let run_hi := S run_hi in
    if run_hi <? hi then
      let* c := less run_hi (run_hi - 1) in
      if Bool.eqb c desc then ret (inl run_hi) else ret (inr run_hi)
    else ret (inr run_hi)) run_hi.

(** detail/timsort.h:165-190. *)
Definition count_run_and_make_ascending (lo hi : nat) : M A nat :=
  assert (lo <? hi) ;;
  let run_hi := S lo in
  if run_hi =? hi then ret 1 else
  let* c := less run_hi lo in
  if (c : bool) then
    let* run_hi := run_end true hi run_hi in
    reverse RandomAccess lo run_hi ;;
    ret (run_hi - lo)
  else
    let* run_hi := run_end false hi run_hi in
    ret (run_hi - lo).

(** detail/timsort.h:192-203. *)
Definition min_run_length (n : nat) : M A nat :=
  loop (S n) (fun '(n, r) =>
    if 64 <=? n then ret (inl (n / 2, Nat.lor r (n mod 2))) else ret (inr (n + r))) (n, 0).

(** detail/timsort.h:302-356 and 358-412: gallopLeft and gallopRight are the same code but for the condition, which is the one of the final
    binary search ([bound]), and the order of the two branches.  [cond] tells whether an element belongs to the left part.  The code has
    lastOfs = -1 in one case; here lastOfs + 1 is kept instead.  Offsets are unbounded (no overflow). *)
Definition gallop_loop (cond : nat -> M A bool) (max_ofs : nat) : M A (nat * nat) :=
  loop (S max_ofs) (fun '(last_ofs, ofs) =>
    if ofs <? max_ofs then
      let* c := cond ofs in
      if (c : bool) then ret (inl (ofs, 2 * ofs + 1)) else ret (inr (last_ofs, ofs))
    else ret (inr (last_ofs, max_ofs))) (0, 1).

Definition gallop (cond : A -> bool) (bound : nat -> nat -> M A nat) (base len hint : nat) : M A nat :=
  assert (0 <? len) ;;
  assert (hint <? len) ;;
  let* x := get (base + hint) in
  if cond x then
    let* (last_ofs, ofs) := gallop_loop (fun ofs => let* y := get (base + (hint + ofs)) in ret (cond y)) (len - hint) in
    assert (last_ofs <? ofs) ;;
    assert (ofs + hint <=? len) ;;
    let* r := bound (base + S (last_ofs + hint)) (base + (ofs + hint)) in
    ret (r - base)
  else
    let* (last_ofs, ofs) := gallop_loop (fun ofs => let* y := get (base + (hint - ofs)) in ret (negb (cond y))) (S hint) in
    assert (last_ofs <? ofs) ;;
    assert (ofs <=? S hint) ;;
    let* r := bound (base + (S hint - ofs)) (base + (hint - last_ofs)) in
    ret (r - base).

Definition gallop_left (key : T) (base len hint : nat) : M A nat :=
  gallop (fun x => comp (proj x) key) (fun f l => lower_bound comp proj f l key) base len hint.
Definition gallop_right (key : T) (base len hint : nat) : M A nat :=
  gallop (fun x => negb (comp key (proj x))) (fun f l => upper_bound comp proj f l key) base len hint.

(** detail/timsort.h:414-429.  operator new is assumed to succeed (otherwise it throws). *)
Definition resize_buffer (b : buffer) (new_size : nat) : M A buffer :=
  if snd b <? new_size then
    return_temporary_buffer b ;;
    let* base := alloc new_size in
    ret (base, new_size)
  else ret b.

(** The cursors and lengths of a merge: cursor1, len1, cursor2, len2, dest. *)
Definition cursors := (nat * nat * nat * nat * nat)%type.

(** detail/timsort.h:470-503.  The boolean of the result is break_outer. *)
Definition lo_count (min_gallop : Z) : cursors -> M A (bool * cursors) := fun '(c1, n1, c2, n2, d) =>
  loop (S (n1 + n2)) (fun '(count1, count2, (c1, n1, c2, n2, d)) =>
    let next count1 count2 s :=
      if (Z.of_nat (Nat.lor count1 count2) <? min_gallop)%Z then ret (inl (count1, count2, s)) else ret (inr (false, s)) in
    assert (1 <? n1) ;;
    assert (0 <? n2) ;;
    let* c := less c2 c1 in
    if (c : bool) then
      move_to c2 d ;;
      let s := (c1, n1, S c2, n2 - 1, S d) in
      if n2 - 1 =? 0 then ret (inr (true, s)) else next 0 (S count2) s
    else
      move_to c1 d ;;
      let s := (S c1, n1 - 1, c2, n2, S d) in
      if n1 - 1 =? 1 then ret (inr (true, s)) else next (S count1) 0 s)
  (0, 0, (c1, n1, c2, n2, d)).

(** detail/timsort.h:505-549. *)
Definition lo_gallop (min_gallop : Z) : cursors -> M A (bool * Z * cursors) := fun '(c1, n1, c2, n2, d) =>
  loop (S (n1 + n2)) (fun '(min_gallop, (c1, n1, c2, n2, d)) =>
    assert (1 <? n1) ;;
    assert (0 <? n2) ;;
    let* x2 := get c2 in
    let* count1 := gallop_right (proj x2) c1 n1 0 in
    (if negb (count1 =? 0) then move_backward c1 (c1 + count1) (d + count1) ;; ret tt else ret tt) ;;
    let d := d + count1 in
    let c1 := c1 + count1 in
    let n1 := n1 - count1 in
    if negb (count1 =? 0) && (n1 <=? 1) then ret (inr (true, min_gallop, (c1, n1, c2, n2, d))) else
    move_to c2 d ;;
    let d := S d in
    let c2 := S c2 in
    let n2 := n2 - 1 in
    if n2 =? 0 then ret (inr (true, min_gallop, (c1, n1, c2, n2, d))) else
    let* x1 := get c1 in
    let* count2 := gallop_left (proj x1) c2 n2 0 in
    (if negb (count2 =? 0) then move_range c2 (c2 + count2) d ;; ret tt else ret tt) ;;
    let d := d + count2 in
    let c2 := c2 + count2 in
    let n2 := n2 - count2 in
    if negb (count2 =? 0) && (n2 =? 0) then ret (inr (true, min_gallop, (c1, n1, c2, n2, d))) else
    move_to c1 d ;;
    let d := S d in
    let c1 := S c1 in
    let n1 := n1 - 1 in
    if n1 =? 1 then ret (inr (true, min_gallop, (c1, n1, c2, n2, d))) else
    let min_gallop := (min_gallop - 1)%Z in
    if (7 <=? count1) || (7 <=? count2) then ret (inl (min_gallop, (c1, n1, c2, n2, d)))
    else ret (inr (false, min_gallop, (c1, n1, c2, n2, d))))
  (min_gallop, (c1, n1, c2, n2, d)).

(** The outer loop, detail/timsort.h:469-558 or 612-708. *)
Definition merge_outer (count : Z -> cursors -> M A (bool * cursors)) (gallops : Z -> cursors -> M A (bool * Z * cursors))
    (fuel : nat) (min_gallop : Z) (s : cursors) : M A (Z * cursors) :=
  loop fuel (fun '(min_gallop, s) =>
    let* (brk, s) := count min_gallop s in
    if (brk : bool) then ret (inr (min_gallop, s)) else
    let* (brk, min_gallop, s) := gallops min_gallop s in
    if (brk : bool) then ret (inr (min_gallop, s)) else
    ret (inl (Z.max min_gallop 0 + 2, s)%Z)) (min_gallop, s).

(** The assertions about the comparison function. *)
Definition contract (b : bool) : M A unit := if strict then assert b else ret tt.

(** The members minGallop_, buffer and buffer_size (lines 89-93). *)
Definition tim_state := (Z * buffer)%type.

(** detail/timsort.h:431-573. *)
Definition merge_lo (base1 len1 base2 len2 : nat) (ts : tim_state) : M A tim_state :=
  assert (0 <? len1) ;;
  assert (0 <? len2) ;;
  assert (base1 + len1 =? base2) ;;
  if len1 =? 1 then rotate_left base1 (base2 + len2) ;; ret ts else
  if len2 =? 1 then rotate_right base1 (base2 + len2) ;; ret ts else
  let '(min_gallop, buf) := ts in
  let* buf := resize_buffer buf len1 in
  uninitialized_move base1 (base1 + len1) (fst buf) ;;
  move_to base2 base1 ;;
  let* (min_gallop, (c1, n1, c2, n2, d)) :=
    merge_outer lo_count lo_gallop (len1 + len2) min_gallop (fst buf, len1, S base2, len2 - 1, S base1) in
  (if n1 =? 1 then
     assert (0 <? n2) ;;
     move_range c2 (c2 + n2) d ;;
     move_to c1 (d + n2)
   else
     contract (negb (n1 =? 0)) ;;
     contract (n2 =? 0) ;;
     contract (1 <? n1) ;;
     move_range c1 (c1 + n1) d ;; ret tt) ;;
  destroy_n (fst buf) len1 ;;
  ret (Z.min min_gallop 1, buf).

(** detail/timsort.h:623-649, with the decrement of line 620 and the increment of line 653. *)
Definition hi_count (min_gallop : Z) : cursors -> M A (bool * cursors) := fun '(c1, n1, c2, n2, d) =>
  loop (S (n1 + n2)) (fun '(count1, count2, (c1, n1, c2, n2, d)) =>
    let next count1 count2 '(c1, n1, c2, n2, d) :=
      if (Z.of_nat (Nat.lor count1 count2) <? min_gallop)%Z then ret (inl (count1, count2, (c1, n1, c2, n2, d)))
      else ret (inr (false, (S c1, n1, c2, n2, d))) in
    assert (0 <? n1) ;;
    assert (1 <? n2) ;;
    let* c := less c2 c1 in
    if (c : bool) then
      move_to c1 d ;;
      if n1 - 1 =? 0 then ret (inr (true, (c1, n1 - 1, c2, n2, d - 1)))
      else next (S count1) 0 (c1 - 1, n1 - 1, c2, n2, d - 1)
    else
      move_to c2 d ;;
      if n2 - 1 =? 1 then ret (inr (true, (S c1, n1, c2 - 1, n2 - 1, d - 1)))
      else next 0 (S count2) (c1, n1, c2 - 1, n2 - 1, d - 1))
  (0, 0, (c1 - 1, n1, c2, n2, d)).

(** detail/timsort.h:656-699. *)
Definition hi_gallop (base1 buf : nat) (min_gallop : Z) : cursors -> M A (bool * Z * cursors) := fun '(c1, n1, c2, n2, d) =>
  loop (S (n1 + n2)) (fun '(min_gallop, (c1, n1, c2, n2, d)) =>
    assert (0 <? n1) ;;
    assert (1 <? n2) ;;
    let* x2 := get c2 in
    let* g := gallop_right (proj x2) base1 n1 (n1 - 1) in
    let count1 := n1 - g in
    let d := d - count1 in
    let c1 := c1 - count1 in
    let n1 := n1 - count1 in
    (if negb (count1 =? 0) then move_backward c1 (c1 + count1) (d + (1 + count1)) ;; ret tt else ret tt) ;;
    if negb (count1 =? 0) && (n1 =? 0) then ret (inr (true, min_gallop, (c1, n1, c2, n2, d))) else
    move_to c2 d ;;
    let d := d - 1 in
    let c2 := c2 - 1 in
    let n2 := n2 - 1 in
    if n2 =? 1 then ret (inr (true, min_gallop, (c1, n1, c2, n2, d))) else
    let* x1 := get (c1 - 1) in
    let* g := gallop_left (proj x1) buf n2 (n2 - 1) in
    let count2 := n2 - g in
    let d := d - count2 in
    let c2 := c2 - count2 in
    let n2 := n2 - count2 in
    (if negb (count2 =? 0) then move_range (c2 + 1) (c2 + (1 + count2)) (d + 1) ;; ret tt else ret tt) ;;
    if negb (count2 =? 0) && (n2 <=? 1) then ret (inr (true, min_gallop, (c1, n1, c2, n2, d))) else
    move_to (c1 - 1) d ;;
    let c1 := c1 - 1 in
    let d := d - 1 in
    let n1 := n1 - 1 in
    if n1 =? 0 then ret (inr (true, min_gallop, (c1, n1, c2, n2, d))) else
    let min_gallop := (min_gallop - 1)%Z in
    if (7 <=? count1) || (7 <=? count2) then ret (inl (min_gallop, (c1, n1, c2, n2, d)))
    else ret (inr (false, min_gallop, (c1, n1, c2, n2, d))))
  (min_gallop, (c1, n1, c2, n2, d)).

(** detail/timsort.h:575-723. *)
Definition merge_hi (base1 len1 base2 len2 : nat) (ts : tim_state) : M A tim_state :=
  assert (0 <? len1) ;;
  assert (0 <? len2) ;;
  assert (base1 + len1 =? base2) ;;
  if len1 =? 1 then rotate_left base1 (base2 + len2) ;; ret ts else
  if len2 =? 1 then rotate_right base1 (base2 + len2) ;; ret ts else
  let '(min_gallop, buf) := ts in
  let* buf := resize_buffer buf len2 in
  uninitialized_move base2 (base2 + len2) (fst buf) ;;
  let c1 := base1 + len1 - 1 in
  let d := base2 + (len2 - 1) in
  move_to c1 d ;;
  let* (min_gallop, (c1, n1, c2, n2, d)) :=
    merge_outer hi_count (hi_gallop base1 (fst buf)) (len1 + len2) min_gallop (c1, len1 - 1, fst buf + (len2 - 1), len2, d - 1) in
  (if n2 =? 1 then
     assert (0 <? n1) ;;
     let d := d - n1 in
     move_backward (c1 - n1) c1 (d + (1 + n1)) ;;
     move_to c2 d
   else
     contract (negb (n2 =? 0)) ;;
     contract (n1 =? 0) ;;
     contract (1 <? n2) ;;
     move_range (fst buf) (fst buf + n2) (d - (n2 - 1)) ;; ret tt) ;;
  destroy_n (fst buf) len2 ;;
  ret (Z.min min_gallop 1, buf).

(** detail/timsort.h:270-300. *)
Definition merge_consecutive_runs (base1 len1 base2 len2 : nat) (ts : tim_state) : M A tim_state :=
  assert (0 <? len1) ;;
  assert (0 <? len2) ;;
  assert (base1 + len1 =? base2) ;;
  let* x := get base2 in
  let* k := gallop_right (proj x) base1 len1 0 in
  let base1 := base1 + k in
  let len1 := len1 - k in
  if len1 =? 0 then ret ts else
  let* y := get (base1 + (len1 - 1)) in
  let* len2 := gallop_left (proj y) base2 len2 (len2 - 1) in
  if len2 =? 0 then ret ts else
  if len1 <=? len2 then merge_lo base1 len1 base2 len2 ts
  else merge_hi base1 len1 base2 len2 ts.

(** The stack pending_: base and length of each run, last run first. *)
Definition pending := list (nat * nat).

(** detail/timsort.h:246-268: merge the last two runs ([i == stackSize - 2]), or the two before the last one ([deep]). *)
Definition merge_at (deep : bool) (p : pending) (ts : tim_state) : M A (pending * tim_state) :=
  match deep, p with
  | false, (b2, l2) :: (b1, l1) :: p =>
      let* ts := merge_consecutive_runs b1 l1 b2 l2 ts in ret ((b1, l1 + l2) :: p, ts)
  | true, r3 :: (b2, l2) :: (b1, l1) :: p =>
      let* ts := merge_consecutive_runs b1 l1 b2 l2 ts in ret (r3 :: (b1, l1 + l2) :: p, ts)
  | _, _ => ub
  end.

(** detail/timsort.h:211-231.  [None] is the break, [Some] the argument of mergeAt. *)
Definition tim_collapse (p : pending) : option bool :=
  match p with
  | (_, c) :: (_, b) :: q =>
    match q with
    | [] => if b <=? c then Some false else None
    | (_, a) :: q =>
      if (a <=? b + c) || (match q with (_, z) :: _ => z <=? a + b | [] => false end)
      then Some (a <? c)
      else if b <=? c then Some false else None
    end
  | _ => None
  end.

(** detail/timsort.h:755-766.  [x | y], [x & ~y]. *)
Definition shivers_collapse (p : pending) : option bool :=
  match p with
  | (_, c) :: (_, b) :: (_, a) :: _ =>
      let x := Nat.lor b c in
      if x <=? Nat.ldiff a x then None else Some true
  | _ => None
  end.

(** detail/timsort.h:233-244. *)
Definition force_collapse (p : pending) : option bool :=
  match p with
  | (_, c) :: (_, b) :: q => Some (match q with (_, a) :: _ => a <? c | [] => false end)
  | _ => None
  end.

(** The while loops of mergeCollapse and mergeForceCollapse. *)
Definition merge_collapse (policy : pending -> option bool) (p : pending) (ts : tim_state) : M A (pending * tim_state) :=
  loop (S (length p)) (fun '(p, ts) =>
    match policy p with
    | None => ret (inr (p, ts))
    | Some deep => let* (p, ts) := merge_at deep p ts in ret (inl (p, ts))
    end) (p, ts).

(** detail/timsort.h:120-132, one iteration. *)
Definition tim_step (policy : pending -> option bool) (hi min_run : nat) :
    nat * nat * pending * tim_state -> M A (nat * nat * pending * tim_state) := fun '(cur, remaining, p, ts) =>
  let* run_len := count_run_and_make_ascending cur hi in
  let* run_len :=
    (if run_len <? min_run then
       let force := Nat.min remaining min_run in
       binary_sort cur (cur + force) (cur + run_len) ;;
       ret force
     else ret run_len) in
  let* (p, ts) := merge_collapse policy ((cur, run_len) :: p) ts in
  ret (cur + run_len, remaining - run_len, p, ts).

(** detail/timsort.h:100-138.  The buffer is released at the end. *)
Definition tim_sort_base (policy : pending -> option bool) : range_prog A := fun lo hi =>
  assert (lo <=? hi) ;;
  let remaining := hi - lo in
  if remaining <? 2 then ret tt else
  if remaining <? 32 then
    let* init_run_len := count_run_and_make_ascending lo hi in
    binary_sort lo hi (lo + init_run_len)
  else
    let* min_run := min_run_length remaining in
    let* (cur, p, ts) := loop (S remaining) (fun s =>
      let* (cur, remaining, p, ts) := tim_step policy hi min_run s in
      if negb (remaining =? 0) then ret (inl (cur, remaining, p, ts)) else ret (inr (cur, p, ts)))
      (lo, remaining, [], (7%Z, null_buffer)) in
    assert (cur =? hi) ;;
    let* (p, ts) := merge_collapse force_collapse p ts in
    assert (length p =? 1) ;;
    return_temporary_buffer (snd ts).

(** sorters/tim_sorter.h:39-57; detail/timsort.h:769-777. *)
Definition tim_sorter : range_prog A := tim_sort_base tim_collapse.
(** sorters/adaptive_shivers_sorter.h; detail/timsort.h:779-787. *)
Definition adaptive_shivers_sorter : range_prog A := tim_sort_base shivers_collapse.
End Model.
