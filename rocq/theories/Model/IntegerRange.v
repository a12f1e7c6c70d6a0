(** utility/make_integer_range.h.  [None]: the program is ill-formed (a constant expression that overflows, or a narrowing conversion of a template
    argument). *)
From Coq Require Import ZArith Bool List.
From Verif Require Import Model.Counting.
Import ListNotations.
Local Open Scope Z_scope.

(** An arithmetic operation of a constant expression, of which [z] is the mathematical result: in the promoted type. *)
Definition constant (t : int_type) (z : Z) : option Z :=
  let p := promoted t in if signed p then (if fits p z then Some z else None) else Some (convert p z).
(** A template argument of type [t]. *)
Definition argument (t : int_type) (z : Z) : option Z := if fits t z then Some z else None.

Definition bind {X Y} (x : option X) (f : X -> option Y) : option Y := match x with Some a => f a | None => None end.
Fixpoint all {X} (l : list (option X)) : option (list X) :=
  match l with
  | [] => Some []
  | x :: l => bind x (fun a => bind (all l) (fun r => Some (a :: r)))
  end.

(** make_integer_range.h:68, Step ? Step : 1. *)
Definition actual_step (s : Z) : Z := if s =? 0 then 1 else s.
(** make_integer_range.h:63-66, the size of the sequence. *)
Definition range_size (t : int_type) (b e s : Z) : option Z :=
  bind (constant t (if b <? e then e - b else b - e)) (fun d =>
  bind (constant t (d - 1)) (fun d =>
  bind (constant t (Z.quot d (actual_step s))) (fun q =>
  bind (constant t (q + 1)) (argument t)))).
(** make_integer_range.h:30-50, one element; [n] is in the sequence of the first natural numbers. *)
Definition range_element (t : int_type) (b s : Z) (increasing : bool) (n : Z) : option Z :=
  bind (constant t (n * s)) (fun x => bind (constant t (if increasing then x + b else b - x)) (argument t)).
(** make_integer_range.h:53-70; std::make_integer_sequence is ill-formed for a negative size. *)
Definition make_integer_range (t : int_type) (b e s : Z) : option (list Z) :=
  bind (range_size t b e s) (fun c =>
  if c <? 0 then None
  else all (map (fun i => range_element t b (actual_step s) (b <? e) (Z.of_nat i)) (seq 0 (Z.to_nat c)))).
