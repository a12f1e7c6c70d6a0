(** A chain of projections, applied from left to right. *)
From Coq Require Import List.
Import ListNotations.

Definition in_turn {V : Type} (fs : list (V -> V)) (x : V) : V := fold_left (fun y f => f y) fs x.
