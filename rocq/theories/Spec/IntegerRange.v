(** The integers from [b] to [e] excluded, by steps of [s]: upwards if [b] is less than [e], downwards otherwise. *)
From Coq Require Import ZArith List.
Local Open Scope Z_scope.

Definition before (b e x : Z) : bool := if b <? e then x <? e else e <? x.
Definition is_range (b e s : Z) (l : list Z) : Prop :=
  forall i : nat, nth_error l i = let x := if b <? e then b + Z.of_nat i * s else b - Z.of_nat i * s in if before b e x then Some x else None.
