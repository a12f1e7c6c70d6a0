(** What default_sorter is to do (docs/Sorters.md:81-105). *)
From Coq Require Import List.
From Verif Require Import Lang.Mem Spec.Sorts Model.Facade Model.Default.
Import ListNotations.

(** The program sorts the object: an array has a fixed number of elements. *)
Definition sorts_object {A} (o : object) (lt : A -> A -> bool) (p : range_prog A) : Prop :=
  match o with Array n => sorts_size n lt p | _ => sorts lt p end.
Definition permutes_object {A} (o : object) (p : range_prog A) : Prop :=
  match o with Array n => permutes_size n p | _ => permutes p end.

(** A call with a comparison, a projection, both in that order or none. *)
Definition proper_call (args : list fn) : Prop :=
  match args with
  | [] => True
  | [f] => is_comparison f = true \/ is_projection f = true
  | [c; p] => is_comparison c = true /\ is_projection p = true
  | _ => False
  end.
Definition is_list (o : object) : Prop := o = StdList \/ o = StdForwardList.
Definition lone_projection (args : list fn) : Prop := exists f, args = [f] /\ is_projection f = true.
