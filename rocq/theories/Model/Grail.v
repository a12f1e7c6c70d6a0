(** grail_sort. *)
From Coq Require Import List Arith ZArith Bool.
From Verif Require Import Lang.Mem Model.Rotate Model.Search Model.Insertion.
Import ListNotations.
Local Open Scope nat_scope.

(** The conversion of a number of elements to int. *)
Definition to_int (n : nat) : Z := ((Z.of_nat n + 2 ^ 31) mod 2 ^ 32 - 2 ^ 31)%Z.

(** How a merge makes room for its output: it does not, it exchanges its elements with those of a buffer in the collection, or it
    moves them over elements that were moved to another buffer. *)
Inductive buffering := NoBuffer | Swaps | Extra.

Section Model.
Context {A T : Type} (comp : T -> T -> bool) (proj : A -> T) (triv : bool).

(** detail/three_way_compare.h:23-31. *)
Definition compare (x y : A) : Z := if comp (proj x) (proj y) then (-1)%Z else if comp (proj y) (proj x) then 1%Z else 0%Z.
Definition compare_at (i j : nat) : M A Z := let* x := get i in let* y := get j in ret (compare x y).

Definition rotate_ra := @rotate A RandomAccess triv.

(** detail/grail_sort.h:44-66. *)
Definition find_keys (first last key_count : nat) : M A nat :=
  let* (h0, dist) := loop (S (last - first)) (fun '(u, h0, dist) =>
    if u =? last then ret (inr (h0, dist)) else
    if dist =? key_count then ret (inr (h0, dist)) else
    let* x := get u in
    let* b := lower_bound_n comp proj h0 dist (proj x) in
    let r := b - h0 in
    let* is_new := if r =? dist then ret true else let* c := compare_at u (h0 + r) in ret (negb (c =? 0)%Z) in
    if (is_new : bool) then
      let* h0 := rotate_ra h0 (h0 + dist) u in
      rotate_ra (h0 + r) u (S u) ;;
      ret (inl (S u, h0, S dist))
    else ret (inl (S u, h0, dist))) (S first, first, 1) in
  rotate_ra first h0 (h0 + dist) ;;
  ret dist.

(** detail/grail_sort.h:88-90. *)
Definition skip_left (first middle : nat) : M A nat :=
  loop (S (middle - first)) (fun first =>
    let first := S first in
    if first =? middle then ret (inr first) else
    let* c := compare_at first middle in
    if (c <=? 0)%Z then ret (inl first) else ret (inr first)) first.

(** detail/grail_sort.h:103-105. *)
Definition skip_right (middle last : nat) : M A nat :=
  loop (S (last - middle)) (fun last =>
    let last := last - 1 in
    if middle =? last then ret (inr last) else
    let* c := compare_at (middle - 1) (last - 1) in
    if (c <=? 0)%Z then ret (inl last) else ret (inr last)) last.

(** detail/grail_sort.h:68-108. *)
Definition merge_without_buffer (first middle last : nat) : M A unit :=
  if middle - first <? last - middle then
    loop (S (last - first)) (fun '(first, middle) =>
      if first =? middle then ret (inr tt) else
      let* x := get first in
      let* it := lower_bound comp proj middle last (proj x) in
      let* (first, middle) :=
        if it =? middle then ret (first, middle) else
        rotate_ra first middle it ;;
        let delta := it - middle in
        ret (first + delta, middle + delta) in
      if middle =? last then ret (inr tt) else
      let* first := skip_left first middle in
      ret (inl (first, middle))) (first, middle)
  else
    loop (S (last - first)) (fun '(middle, last) =>
      if middle =? last then ret (inr tt) else
      let* x := get (last - 1) in
      let* it := upper_bound comp proj first middle (proj x) in
      let* (middle, last) :=
        if it =? middle then ret (middle, last) else
        rotate_ra it middle last ;;
        let delta := middle - it in
        ret (middle - delta, last - delta) in
      if first =? middle then ret (inr tt) else
      let* last := skip_right middle last in
      ret (inl (middle, last))) (middle, last).

(** An element is exchanged with one of the buffer, or it is moved over one that was moved. *)
Definition transfer (ext : bool) (dst src : nat) : M A unit := if ext then move_to src dst else swap dst src.

(** detail/grail_sort.h:110-136 (merge_left) and, with [ext], 259-283 (merge_left_with_extra_buffer), which differ in that only. *)
Definition merge_left (ext : bool) (first middle last out : nat) : M A unit :=
  let* (left_it, out) := loop (S (last - first)) (fun '(left_it, right_it, out) =>
    if right_it =? last then ret (inr (left_it, out)) else
    let* take_right := if left_it =? middle then ret true else let* c := compare_at left_it right_it in ret (0 <? c)%Z in
    if (take_right : bool) then transfer ext out right_it ;; ret (inl (left_it, S right_it, S out))
    else transfer ext out left_it ;; ret (inl (S left_it, right_it, S out))) (first, middle, out) in
  if out =? left_it then ret tt else
  if ext then move_range left_it middle out ;; ret tt
  else swap_ranges out (out + (middle - left_it)) left_it ;; ret tt.

(** detail/grail_sort.h:138-184.  [p2 < middle] is written on the position after [p2], as [p2] may be before the first element. *)
Definition merge_right (first middle last out : nat) : M A unit :=
  let* (p1, p2', p0) := loop (S (last - first)) (fun '(p1, p2', p0) =>
    if first <? p1 then
      let* take_left := if p2' =? middle then ret true else let* c := compare_at p1 (p2' - 1) in ret (0 <? c)%Z in
      if (take_left : bool) then swap p0 p1 ;; ret (inl (p1 - 1, p2', p0 - 1))
      else swap p0 (p2' - 1) ;; ret (inl (p1, p2' - 1, p0 - 1))
    else ret (inr (p1, p2', p0))) (middle - 1, last, out - 1) in
  let* (p2', p0) :=
    if p1 =? first then
      let* (p2', p0) := loop (S (last - first)) (fun '(p2', p0) =>
        let* stop := if p2' =? middle then ret true else let* c := compare_at p1 (p2' - 1) in ret (0 <? c)%Z in
        if (stop : bool) then ret (inr (p2', p0)) else
        swap p0 (p2' - 1) ;; ret (inl (p2' - 1, p0 - 1))) (p2', p0) in
      swap p0 p1 ;; ret (p2', p0)
    else ret (p2', S p0) in
  (* here the position after p0 is [p0] *)
  if p2' =? p0 then ret tt else
  loop (S (last - first)) (fun '(p2', p0) =>
    if middle <? p2' then swap (p0 - 1) (p2' - 1) ;; ret (inl (p2' - 1, p0 - 1))
    else ret (inr tt)) (p2', p0).

(** detail/grail_sort.h:186-223 (smart_merge_with_buffer) and, with [ext], 285-318 (smart_merge_with_extra_buffer): the number of elements
    left over and the stream they are from. *)
Definition smart_merge_with_buffer (ext : bool) (first middle last block_len : nat) (left_over_frag : Z) : M A (nat * Z) :=
  let frag_type := (1 - left_over_frag)%Z in
  let* (left_it, right_it) := loop (S (last - first)) (fun '(left_it, right_it, out_it) =>
    if (left_it =? middle) || (right_it =? last) then ret (inr (left_it, right_it)) else
    let* c := compare_at left_it right_it in
    if (c - frag_type <? 0)%Z then transfer ext out_it left_it ;; ret (inl (S left_it, right_it, S out_it))
    else transfer ext out_it right_it ;; ret (inl (left_it, S right_it, S out_it))) (first, middle, first - block_len) in
  if left_it <? middle then
    loop (S (middle - left_it)) (fun '(middle, last) =>
      let middle := middle - 1 in
      let last := last - 1 in
      transfer ext last middle ;;
      if left_it =? middle then ret (inr tt) else ret (inl (middle, last))) (middle, last) ;;
    ret (middle - left_it, left_over_frag)
  else ret (last - right_it, frag_type).

(** detail/grail_sort.h:249-251. *)
Definition skip_frag (frag_type : Z) (first middle : nat) : M A nat :=
  loop (S (middle - first)) (fun first =>
    let first := S first in
    if first =? middle then ret (inr first) else
    let* c := compare_at first middle in
    if (c - frag_type <? 0)%Z then ret (inl first) else ret (inr first)) first.

(** detail/grail_sort.h:225-255. *)
Definition smart_merge_without_buffer (first middle last : nat) (left_over_frag : Z) : M A (nat * Z) :=
  if middle =? last then ret (middle - first, left_over_frag) else
  let frag_type := (1 - left_over_frag)%Z in
  let* enter := if first =? middle then ret false else let* c := compare_at (middle - 1) middle in ret (0 <=? c - frag_type)%Z in
  if (enter : bool) then
    loop (S (last - first)) (fun '(first, middle) =>
      if first =? middle then ret (inr (last - middle, frag_type)) else
      let* x := get first in
      let* it := if (frag_type =? 0)%Z then upper_bound comp proj middle last (proj x) else lower_bound comp proj middle last (proj x) in
      let len := it - middle in
      let* (first, middle) :=
        if len =? 0 then ret (first, middle) else
        rotate_ra first middle (middle + len) ;; ret (first + len, middle + len) in
      if middle =? last then ret (inr (middle - first, left_over_frag)) else
      let* first := skip_frag frag_type first middle in
      ret (inl (first, middle))) (first, middle)
  else ret (last - middle, frag_type).

(** detail/grail_sort.h:350, 362 (ext), 413-415, 435-437. *)
Definition shift_rest (mode : buffering) (prest lrest lblock : nat) : M A unit :=
  match mode with
  | NoBuffer => ret tt
  | Swaps => swap_ranges (prest - lblock) (prest - (lblock - lrest)) prest ;; ret tt
  | Extra => move_range prest (prest + lrest) (prest - lblock) ;; ret tt
  end.
(** detail/grail_sort.h:371 (ext), 451-453. *)
Definition shift_last (mode : buffering) (prest lrest lblock : nat) : M A unit :=
  match mode with
  | NoBuffer => ret tt
  | Swaps => swap_ranges prest (prest + lrest) (prest - lblock) ;; ret tt
  | Extra => move_range prest (prest + lrest) (prest - lblock) ;; ret tt
  end.
(** detail/grail_sort.h:354-356 (ext), 419-427. *)
Definition smart_merge (mode : buffering) (prest lrest lblock : nat) (frest : Z) : M A (nat * Z) :=
  match mode with
  | NoBuffer => smart_merge_without_buffer prest (prest + lrest) (prest + (lrest + lblock)) frest
  | Swaps => smart_merge_with_buffer false prest (prest + lrest) (prest + (lrest + lblock)) lblock frest
  | Extra => smart_merge_with_buffer true prest (prest + lrest) (prest + (lrest + lblock)) lblock frest
  end.
(** detail/grail_sort.h:339, 368-369 (ext), 398-402, 443-449. *)
Definition merge_final (mode : buffering) (first middle last lblock : nat) : M A unit :=
  match mode with
  | NoBuffer => merge_without_buffer first middle last
  | Swaps => merge_left false first middle last (first - lblock)
  | Extra => merge_left true first middle last (first - lblock)
  end.

(** detail/grail_sort.h:344, 348 (ext), 407, 411: the stream of a block. *)
Definition stream_of (key midkey : nat) : M A Z :=
  let* c := compare_at key midkey in ret (if (c <? 0)%Z then 0%Z else 1%Z).

(** detail/grail_sort.h:377-455 (merge_buffers_left) and, with the mode [Extra], 320-373 (merge_buffers_left_with_extra_buffer), which
    have the same structure. *)
Definition merge_buffers_left (mode : buffering) (keys midkey arr nblock lblock nblock2 llast : nat) : M A unit :=
  if nblock =? 0 then
    let l := arr + nblock2 * lblock in
    merge_final mode arr l (l + llast) lblock
  else
    let* frest := stream_of keys midkey in
    let* (pidx, lrest, frest) := loop (S nblock) (fun '(cidx, pidx, lrest, frest) =>
      if cidx <? nblock then
        let prest := pidx - lrest in
        let* fnext := stream_of (keys + cidx) midkey in
        let* (lrest, frest) :=
          if (fnext =? frest)%Z then
            shift_rest mode prest lrest lblock ;; ret (lblock, frest)
          else smart_merge mode prest lrest lblock frest in
        ret (inl (S cidx, pidx + lblock, lrest, frest))
      else ret (inr (pidx, lrest, frest))) (1, arr + lblock, lblock, frest) in
    let prest := pidx - lrest in
    if llast =? 0 then shift_last mode prest lrest lblock else
    let* (prest, lrest) :=
      if (frest =? 0)%Z then ret (prest, lrest + lblock * nblock2)
      else shift_rest mode prest lrest lblock ;; ret (pidx, lblock * nblock2) in
    merge_final mode prest (prest + lrest) (prest + (lrest + llast)) lblock.

(** detail/grail_sort.h:482-492 (ext), 513-523. *)
Definition build_pairs (ext : bool) (first size : nat) : M A unit :=
  loop (S size) (fun m =>
    if m <? size then
      let* c := compare_at (first + m - 1) (first + m) in
      let u := if (0 <? c)%Z then 1 else 0 in
      transfer ext (first + m - 3) (first + (m - 1 + u)) ;;
      transfer ext (first + m - 2) (first + (m - u)) ;;
      ret (inl (m + 2))
    else ret (inr tt)) 1 ;;
  if size mod 2 =? 1 then transfer ext (first + size - 3) (first + (size - 1)) else ret tt.

(** detail/grail_sort.h:496-507 (ext), 529-542. *)
Definition build_pass (ext : bool) (h first last : nat) : M A unit :=
  let* p0 := loop (S (last - first)) (fun p0 =>
    if p0 + 2 * h <=? last then
      merge_left ext p0 (p0 + h) (p0 + (h + h)) (p0 - h) ;; ret (inl (p0 + 2 * h))
    else ret (inr p0)) first in
  if h <? last - p0 then merge_left ext p0 (p0 + h) last (p0 - h)
  else if ext then move_range p0 last (p0 - h) ;; ret tt
  else rotate_ra (p0 - h) p0 last ;; ret tt.

(** detail/grail_sort.h:495-510 (ext), 528-545: the passes for [h] less than [bound].  The result: [first], [last] and [h]. *)
Definition build_passes (ext : bool) (bound first last h : nat) : M A (nat * nat * nat) :=
  loop (S bound) (fun '(first, last, h) =>
    if h <? bound then
      build_pass ext h first last ;; ret (inl (first - h, last - h, h * 2))
    else ret (inr (first, last, h))) (first, last, h).

(** detail/grail_sort.h:475-477. *)
Definition power_of_2 (kbuf : nat) : M A nat :=
  loop (S kbuf) (fun kbuf =>
    if Nat.land kbuf (kbuf - 1) =? 0 then ret (inr kbuf) else ret (inl (Nat.land kbuf (kbuf - 1)))) kbuf.

(** detail/grail_sort.h:457-557.  If LExtBuf is negative the loop of lines 475-477 reaches the least value of the type, from which 1 is subtracted. *)
Definition build_blocks (first last K extbuf : nat) (LExtBuf : Z) : M A unit :=
  let size := last - first in
  if (LExtBuf <? 0)%Z then ub else
  let* kbuf := power_of_2 (Nat.min K (Z.to_nat LExtBuf)) in
  let* (first, last, h) :=
    if kbuf =? 0 then
      build_pairs false first size ;;
      ret (first - 2, last - 2, 2)
    else
      move_range (first - kbuf) first extbuf ;;
      build_pairs true first size ;;
      let* (first, last, h) := build_passes true kbuf (first - 2) (last - 2) 2 in
      move_range extbuf (extbuf + kbuf) last ;;
      ret (first, last, h) in
  let* (first, last, _) := build_passes false K first last h in
  let restk := size mod (2 * K) in
  let p := last - restk in
  (if restk <=? K then rotate_ra p last (last + K) ;; ret tt
   else merge_right p (p + K) last (last + K)) ;;
  loop (S size) (fun p =>
    if first <? p then
      let p := p - 2 * K in
      merge_right p (p + K) (p + (K + K)) (p + (K + K + K)) ;; ret (inl p)
    else ret (inr tt)) p.

(** detail/grail_sort.h:593-599: the block to be put at [u - 1]. *)
Definition select_block (keys arr1 lblock NBlk u : nat) : M A nat :=
  loop (S NBlk) (fun '(v, p) =>
    if v <? NBlk then
      let* kc := compare_at (arr1 + p * lblock) (arr1 + v * lblock) in
      let* less := if (0 <? kc)%Z then ret true else
        if (kc =? 0)%Z then let* c := compare_at (keys + p) (keys + v) in ret (0 <? c)%Z else ret false in
      ret (inl (S v, if (less : bool) then v else p))
    else ret (inr p)) (u, u - 1).

(** detail/grail_sort.h:591-607: the result is the position of the middle key. *)
Definition sort_blocks (keys arr1 lblock NBlk midkey : nat) : M A nat :=
  loop (S NBlk) (fun '(u, midkey) =>
    if u <? NBlk then
      let* p := select_block keys arr1 lblock NBlk u in
      if p =? u - 1 then ret (inl (S u, midkey)) else
      swap_ranges (arr1 + (u - 1) * lblock) (arr1 + u * lblock) (arr1 + p * lblock) ;;
      swap (keys + (u - 1)) (keys + p) ;;
      ret (inl (S u, if (midkey =? u - 1) || (midkey =? p) then Nat.lxor midkey (Nat.lxor (u - 1) p) else midkey))
    else ret (inr midkey)) (1, midkey).

(** detail/grail_sort.h:608-618: the blocks after the last irregular one. *)
Definition count_after (arr1 lblock NBlk llast : nat) : M A nat :=
  if llast =? 0 then ret 0 else
  loop (S NBlk) (fun nbl2 =>
    if nbl2 <? NBlk then
      let* c := compare_at (arr1 + NBlk * lblock) (arr1 + (NBlk - nbl2 - 1) * lblock) in
      if (c <? 0)%Z then ret (inl (S nbl2)) else ret (inr nbl2)
    else ret (inr nbl2)) 0.

(** detail/grail_sort.h:586-625: one iteration; [len1] is the number of elements to merge: two sequences, of which the first has [LL]
    elements.  [irregular] is [b == M]. *)
Definition combine_two (mode : buffering) (keys arr1 len1 LL lblock : nat) (irregular : bool) : M A unit :=
  let NBlk := len1 / lblock in
  insertion_sort comp proj keys (keys + (NBlk + (if irregular then 1 else 0))) ;;
  let* midkey := sort_blocks keys arr1 lblock NBlk (LL / lblock) in
  let llast := if irregular then len1 mod lblock else 0 in
  let* nbl2 := count_after arr1 lblock NBlk llast in
  merge_buffers_left mode keys (keys + midkey) arr1 (NBlk - nbl2) lblock nbl2 llast.

(** detail/grail_sort.h:628-630 (ext), 633-635. *)
Definition shift_back (ext : bool) (arr len lblock : nat) : M A unit :=
  loop (S len) (fun len =>
    if len =? 0 then ret (inr tt) else
    let len := len - 1 in
    transfer ext (arr + len) (arr + len - lblock) ;; ret (inl len)) len.

(** detail/grail_sort.h:559-637. *)
Definition combine_blocks (mode : buffering) (keys arr len LL lblock xbuf : nat) : M A unit :=
  let M := len / (2 * LL) in
  let lrest := len mod (2 * LL) in
  let '(len, lrest) := if lrest <=? LL then (len - lrest, 0) else (len, lrest) in
  (match mode with Extra => move_range (arr - lblock) arr xbuf ;; ret tt | _ => ret tt end) ;;
  loop (S (S M)) (fun b =>
    if b <=? M then
      if (b =? M) && (lrest =? 0) then ret (inr tt) else
      combine_two mode keys (arr + b * 2 * LL) (if b =? M then lrest else 2 * LL) LL lblock (b =? M) ;;
      ret (inl (S b))
    else ret (inr tt)) 0 ;;
  match mode with
  | Extra => shift_back true arr len lblock ;; move_range xbuf (xbuf + lblock) (arr - lblock) ;; ret tt
  | Swaps => shift_back false arr len lblock
  | NoBuffer => ret tt
  end.

(** detail/grail_sort.h:648-654. *)
Definition lazy_pairs (first last : nat) : M A unit :=
  let size := last - first in
  let end_loop := if size mod 2 =? 0 then last else last - 1 in
  loop (S size) (fun it =>
    if it =? end_loop then ret (inr tt) else
    let* c := compare_at it (S it) in
    (if (0 <? c)%Z then swap it (S it) else ret tt) ;;
    ret (inl (it + 2))) first.

(** detail/grail_sort.h:657-668.  The number of elements left is converted to int on line 665. *)
Definition lazy_pass (h first last : nat) : M A unit :=
  let* p0 := loop (S (last - first)) (fun p0 =>
    if p0 + 2 * h <=? last then merge_without_buffer p0 (p0 + h) (p0 + (h + h)) ;; ret (inl (p0 + 2 * h))
    else ret (inr p0)) first in
  let rest := to_int (last - p0) in
  if (Z.of_nat h <? rest)%Z then merge_without_buffer p0 (p0 + h) last else ret tt.

(** detail/grail_sort.h:639-670. *)
Definition lazy_stable_sort (first last : nat) : M A unit :=
  lazy_pairs first last ;;
  loop (S (last - first)) (fun h =>
    if h <? last - first then lazy_pass h first last ;; ret (inl (h * 2)) else ret (inr tt)) 2.

(** detail/grail_sort.h:687-690. *)
Definition block_length (size : nat) : M A nat :=
  loop (S size) (fun lblock => if lblock * lblock <? size then ret (inl (lblock * 2)) else ret (inr lblock)) 4.
(** detail/grail_sort.h:699-702. *)
Definition halve_keys (nkeys findkeys : nat) : M A nat :=
  loop (S nkeys) (fun nkeys => if findkeys <? nkeys then ret (inl (nkeys / 2)) else ret (inr nkeys)) nkeys.
(** detail/grail_sort.h:724-729.  long long is assumed not to overflow. *)
Definition key_number (nkeys s : nat) : M A nat :=
  loop (S nkeys) (fun '(nk, s) => if (nk <? nkeys) && negb (s =? 0) then ret (inl (nk * 2, s / 8)) else ret (inr nk)) (1, s).

(** detail/grail_sort.h:717-732: the length of the blocks, and whether there is a buffer in the collection. *)
Definition choose_block (havebuf : bool) (lblock nkeys findkeys cbuf : nat) : M A (nat * bool) :=
  if havebuf then ret (lblock, true) else
  if (4 <? nkeys) && (cbuf <=? nkeys / 8 * nkeys) then ret (nkeys / 2, true) else
  let* nk := key_number nkeys (cbuf * findkeys / 2) in
  ret (2 * cbuf / nk, false).

(** detail/grail_sort.h:715-737. *)
Definition combine_all (havebuf : bool) (first ptr last lblock nkeys findkeys cbuf extbuf : nat) (LExtBuf : Z) : M A unit :=
  loop (S (last - ptr)) (fun cbuf =>
    let cbuf := cbuf * 2 in
    if cbuf <? last - ptr then
      let* (lb, chavebuf) := choose_block havebuf lblock nkeys findkeys cbuf in
      let usexbuf := chavebuf && (Z.of_nat lb <=? LExtBuf)%Z in
      combine_blocks (if usexbuf then Extra else if chavebuf then Swaps else NoBuffer) first ptr (last - ptr) cbuf lb extbuf ;;
      ret (inl cbuf)
    else ret (inr tt)) cbuf.

(** detail/grail_sort.h:672-740. *)
Definition common_sort (first last extbuf : nat) (LExtBuf : Z) : M A unit :=
  let size := last - first in
  if size <? 16 then insertion_sort comp proj first last else
  let* lblock := block_length size in
  let nkeys := (size - 1) / lblock + 1 in
  let* findkeys := find_keys first last (nkeys + lblock) in
  if (findkeys <? nkeys + lblock) && (findkeys <? 4) then lazy_stable_sort first last else
  let* (havebuf, nkeys, lblock) :=
    if findkeys <? nkeys + lblock then
      let* nkeys := halve_keys lblock findkeys in ret (false, nkeys, 0)
    else ret (true, nkeys, lblock) in
  let ptr := first + (lblock + nkeys) in
  let cbuf := if (havebuf : bool) then lblock else nkeys in
  build_blocks ptr last cbuf extbuf (if havebuf then LExtBuf else 0%Z) ;;
  combine_all havebuf first ptr last lblock nkeys findkeys cbuf extbuf LExtBuf ;;
  insertion_sort comp proj first ptr ;;
  merge_without_buffer first ptr last.

(** utility/buffer.h:25-96, 176-258: a buffer is an array of objects.  They are default-initialized or value-initialized; the model does not
    let the program read them before it has assigned them. *)
Definition make_buffer (n : nat) : M A nat := fun m => Ok (length m) (m ++ repeat Moved n).

(** detail/grail_sort.h:742-756, sorters/grail_sorter.h:29-63; [buffer_size] is what the buffer provider returns for a collection. *)
Definition grail_sorter (buffer_size : nat -> nat) : range_prog A := fun first last =>
  let n := buffer_size (last - first) in
  let* buffer := make_buffer n in
  common_sort first last buffer (to_int n) ;;
  destroy_n buffer n ;;
  dealloc buffer n.
End Model.
