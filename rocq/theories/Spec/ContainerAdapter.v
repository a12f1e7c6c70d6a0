(** The calls of a dedicated algorithm that can stand for a call, the best one first. *)
From Coq Require Import List Bool.
From Verif Require Import Model.Facade.
Import ListNotations.

Definition dedicated_calls (args : list fn) : list (list fn) :=
  match args with
  | [f] => if is_comparison f then [[f]] else [[f]; [Less; f]; [Fused Less f]]
  | [c; p] => [[c; p]; [Fused c p]]
  | _ => [args]
  end.
