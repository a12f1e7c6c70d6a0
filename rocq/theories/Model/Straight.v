(** The straight-line fragment of C++ in which the fixed-size sorters are written: statements on
    [first[0] .. first[n-1]], and their execution. The last argument of a statement is the rest of
    the block. *)
From Coq Require Import List Arith Bool.
From Verif Require Import Lang.Mem Model.Basic.
Import ListNotations.

Inductive code : Type :=
| End                                   (** end of a block *)
| Return                                (** [return;] *)
| SwapIf (a b : nat) (k : code)         (** [iter_swap_if(first + a, first + b, ...)] *)
| Swap (a b : nat) (k : code)           (** [iter_swap(first + a, first + b)] *)
| Cycle (l : list nat) (k : code)       (** [auto tmp = iter_move(first + l0); first[l0] = iter_move(first + l1); ...;
                                             first[ln] = std::move(tmp)] *)
| RotL (n off : nat) (k : code)         (** [rotate_left<n>(first + off)] *)
| RotR (n off : nat) (k : code)         (** [rotate_right<n>(first + off)] *)
| If (a b : nat) (t e : code) (k : code) (** [if (comp(proj(first[a]), proj(first[b]))) {t} else {e}] *)
| SetFlag (b : bool) (k : code)         (** [c_is_small = b;] *)
| IfFlag (t : code) (k : code).         (** [if (c_is_small) {t}] *)

Section Exec.
Context {A T : Type} (comp : T -> T -> bool) (proj : A -> T).

(** The moves of [Cycle] once the variable tmp holds [x]; [hole] is the moved-from position. *)
Fixpoint cycle_moves (first : nat) (x : A) (hole : nat) (l : list nat) : M A unit :=
  match l with
  | [] => put (first + hole) x
  | j :: l =>
      move_to (first + j) (first + hole) ;;
      cycle_moves first x j l
  end.

Definition cycle (first : nat) (l : list nat) : M A unit :=
  match l with
  | [] => ret tt
  | i :: l => let* x := take (first + i) in cycle_moves first x i l
  end.

(** detail/rotate_left.h:20-49: positions 0, 1, .., N-1 in turn receive their successor. *)
Definition rotate_left_n (n first : nat) : M A unit := cycle first (seq 0 n).

(** detail/rotate_right.h:20-47: positions N-1, .., 1 in turn receive their predecessor. *)
Definition rotate_right_n (n first : nat) : M A unit := cycle first (rev (seq 0 n)).

(** The result is [None] after a [return], else the value of the flag. *)
Fixpoint exec (first : nat) (c : code) (flag : bool) : M A (option bool) :=
  match c with
  | End => ret (Some flag)
  | Return => ret None
  | SwapIf a b k => iter_swap_if comp proj (first + a) (first + b) ;; exec first k flag
  | Swap a b k => swap (first + a) (first + b) ;; exec first k flag
  | Cycle l k => cycle first l ;; exec first k flag
  | RotL n off k => rotate_left_n n (first + off) ;; exec first k flag
  | RotR n off k => rotate_right_n n (first + off) ;; exec first k flag
  | If a b t e k =>
      let* c := less_at comp proj (first + a) (first + b) in
      let* r := exec first (if c then t else e) flag in
      match r with
      | None => ret None
      | Some flag => exec first k flag
      end
  | SetFlag b k => exec first k b
  | IfFlag t k =>
      let* r := (if flag then exec first t flag else ret (Some flag)) in
      match r with
      | None => ret None
      | Some flag => exec first k flag
      end
  end.

Definition run_code (c : code) (first : nat) : M A unit := exec first c false ;; ret tt.
End Exec.
