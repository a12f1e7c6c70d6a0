(** Specification of the string orders, independent of the model. *)
From Coq Require Import List Arith.
Import ListNotations.

(** Lexicographic order on lists, as a relation. *)
Inductive lex {T : Type} (R : T -> T -> Prop) : list T -> list T -> Prop :=
| lex_nil : forall b t, lex R [] (b :: t)
| lex_lt : forall a s b t, R a b -> lex R (a :: s) (b :: t)
| lex_eq : forall a s t, lex R s t -> lex R (a :: s) (a :: t).

Definition digit (c : nat) : Prop := 48 <= c <= 57.

(** The number written by a list of digits. *)
Definition number (d : list nat) : nat := fold_left (fun a c => 10 * a + (c - 48)) d 0.

(** A string read for humans: single characters, and maximal runs of digits taken as numbers. *)
Inductive token := Char (c : nat) | Num (n : nat).

Inductive reads : list nat -> list token -> Prop :=
| reads_nil : reads [] []
| reads_char : forall c s k, ~ digit c -> reads s k -> reads (c :: s) (Char c :: k)
| reads_num : forall d s k, d <> [] -> Forall digit d -> (forall c t, s = c :: t -> ~ digit c) ->
    reads s k -> reads (d ++ s) (Num (number d) :: k).

(** Characters by value, numbers by value; a number is placed among the characters where its digits are. *)
Definition token_lt (x y : token) : Prop :=
  match x, y with
  | Char a, Char b => a < b
  | Num a, Num b => a < b
  | Char a, Num _ => a < 48
  | Num _, Char b => 57 < b
  end.
