(** metrics/moves.h: the metric that counts the moves of a sorter.

    A sorter is a program on the addresses of a memory whose first cells are the range; the others are what it allocates (buffers and local variables).
    It reads the elements through the projection only, and moves them by move construction and move assignment.  Simplifications: the sorter is the same
    program for the elements and for their wrappers (it does not look at their type); the fake iterator category is left out; CountType does not
    overflow. *)
From Coq Require Import List Arith.
From Verif Require Import Lang.Mem.
Import ListNotations.

Inductive prog (K : Type) : Type :=
| Done
| Read (l : nat) (k : K -> prog K)
| Assign (dst src : nat) (k : prog K)
| Construct (dst src : nat) (k : prog K)
| Destroy (l : nat) (k : prog K)
| Alloc (n : nat) (k : nat -> prog K)
| Dealloc (base n : nat) (k : prog K).
Arguments Done {K}. Arguments Read {K} l k. Arguments Assign {K} dst src k. Arguments Construct {K} dst src k.
Arguments Destroy {K} l k. Arguments Alloc {K} n k. Arguments Dealloc {K} base n k.

(** The elements themselves: the operations of [Lang.Mem].  *)
Section Direct.
Context {A K : Type} (proj : A -> K).
Fixpoint run (p : prog K) : M A unit :=
  match p with
  | Done => ret tt
  | Read l k => let* a := get l in run (k (proj a))
  | Assign dst src k => move_to src dst ;; run k
  | Construct dst src k => (let* a := take src in construct dst a) ;; run k
  | Destroy l k => destroy l ;; run k
  | Alloc n k => let* b := alloc n in run (k b)
  | Dealloc b n k => dealloc b n ;; run k
  end.
End Direct.

(** moves.h:32-66, move_counting_wrapper: the value ([None] once it was moved from) and the address of the counter.  The counters are in a memory of their
    own. *)
Record wrapper (A : Type) := { value : option A; count : nat }.
Arguments value {A} w. Arguments count {A} w. Arguments Build_wrapper {A} value count.
Definition slots (A : Type) := list (option (wrapper A)).
Definition counters := list nat.
Definition incr (c : nat) (h : counters) : option counters := match nth_error h c with Some x => Some (upd c (S x) h) | None => None end.
(** moves.h:47-52, the move constructor. *)
Definition wrapper_construct {A} (dst src : nat) (m : slots A) (h : counters) : option (slots A * counters) :=
  match nth_error m src, nth_error m dst with
  | Some (Some {| value := Some a; count := c |}), Some None =>
      match incr c h with
      | Some h => Some (upd dst (Some {| value := Some a; count := c |}) (upd src (Some {| value := None; count := c |}) m), h)
      | None => None
      end
  | _, _ => None
  end.
(** moves.h:54-61, the move assignment. *)
Definition wrapper_assign {A} (dst src : nat) (m : slots A) (h : counters) : option (slots A * counters) :=
  match nth_error m src, nth_error m dst with
  | Some (Some {| value := Some a; count := c |}), Some (Some _) =>
      if Nat.eqb src dst then None
      else
        match incr c h with
        | Some h => Some (upd dst (Some {| value := Some a; count := c |}) (upd src (Some {| value := None; count := c |}) m), h)
        | None => None
        end
  | _, _ => None
  end.

Section Wrapped.
Context {A K : Type} (proj : A -> K).
(** The sorter on the wrappers, with as_projection(&wrapper_t::value) | projection.  [None] is undefined behaviour. *)
Fixpoint run_wrapped (p : prog K) (m : slots A) (h : counters) : option (slots A * counters) :=
  match p with
  | Done => Some (m, h)
  | Read l k => match nth_error m l with Some (Some {| value := Some a |}) => run_wrapped (k (proj a)) m h | _ => None end
  | Assign dst src k => match wrapper_assign dst src m h with Some (m, h) => run_wrapped k m h | None => None end
  | Construct dst src k => match wrapper_construct dst src m h with Some (m, h) => run_wrapped k m h | None => None end
  | Destroy l k => match nth_error m l with Some (Some _) => run_wrapped k (upd l None m) h | _ => None end
  | Alloc n k => run_wrapped (k (length m)) (m ++ repeat None n) h
  | Dealloc b n k =>
      if Nat.eqb (b + n) (length m)
      then if forallb (fun c => match c with None => true | _ => false end) (skipn b m) then run_wrapped k (firstn b m) h else None
      else None
  end.

(** moves.h:101-106: the values go back to the range. *)
Fixpoint move_back (n : nat) (m : slots A) : option (list A) :=
  match n, m with
  | 0, _ => Some []
  | S n, Some {| value := Some a |} :: m => match move_back n m with Some l => Some (a :: l) | None => None end
  | S n, _ => None
  end.
(** moves.h:68-109.  [h] is the memory of the counters that exist already; the result is the range, that memory and the count. *)
Definition count_moves (sorter : nat -> prog K) (range : list A) (h : counters) : option (list A * counters * nat) :=
  let c := length h in
  let vec := map (fun a => Some {| value := Some a; count := c |}) range in
  match run_wrapped (sorter (length range)) vec (h ++ [0]) with
  | Some (vec, h) =>
      match move_back (length range) vec, nth_error h c with
      | Some range, Some n => Some (range, h, n)
      | _, _ => None
      end
  | None => None
  end.
End Wrapped.
