(** The moves of a run of a sorter on the elements themselves. *)
From Coq Require Import List.
From Verif Require Import Lang.Mem Model.MoveCount.
Import ListNotations.

Section Moves.
Context {A K : Type} (proj : A -> K).
(** How many move constructions and move assignments are executed. *)
Fixpoint moves (p : prog K) (m : mem A) : nat :=
  match p with
  | Done => 0
  | Read l k => match get l m with Ok a m' => moves (k (proj a)) m' | _ => 0 end
  | Assign dst src k => match move_to src dst m with Ok _ m' => S (moves k m') | _ => 0 end
  | Construct dst src k => match (let* a := take src in construct dst a) m with Ok _ m' => S (moves k m') | _ => 0 end
  | Destroy l k => match destroy l m with Ok _ m' => moves k m' | _ => 0 end
  | Alloc n k => match alloc n m with Ok b m' => moves (k b) m' | _ => 0 end
  | Dealloc b n k => match dealloc b n m with Ok _ m' => moves k m' | _ => 0 end
  end.
End Moves.
