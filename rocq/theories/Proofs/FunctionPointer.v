(** Proofs about the conversions to function pointers. *)
From Coq Require Import List Bool Arith Lia.
From Verif Require Import Model.FunctionPointer.
Import ListNotations.

Lemma type_eqb_eq : forall a b, type_eqb a b = true <-> a = b.
Proof. intros [n|n|n] [m|m|m]; simpl; try (split; discriminate); rewrite Nat.eqb_eq; (split; [now intros ->|now injection 1]). Qed.

Lemma type_eqb_refl : forall t, type_eqb t t = true.
Proof. intros t. now apply type_eqb_eq. Qed.

(** All the cases of a list of parameters. *)
Lemma convert_cases : forall (d : bool) (r : result) (ts : list type),
  convert true d (Pointer r ts) =
  match ts with
  | [] => NoConversion
  | t :: us =>
      let by_reference := match t with Object _ => false | _ => true end in
      let invoke := if d then Invoke ts (match r with Void => false | Result _ => true end) else HardError in
      match us with
      | [] => if by_reference then invoke else NoConversion
      | [u] | [u; _] => if by_reference then if type_eqb u t then AmbiguousConversion else invoke else if type_eqb u t then invoke else NoConversion
      | [u; _; _] => if type_eqb u t then invoke else NoConversion
      | _ => NoConversion
      end
  end.
Proof.
  intros d r [|t [|u [|v [|w [|x l]]]]]; [reflexivity|destruct t; reflexivity| | | |];
    (destruct (type_eqb u t) eqn:E; [apply type_eqb_eq in E; subst u|]);
    destruct t; unfold convert, matches; repeat (cbn -[type_eqb]; rewrite ?E, ?type_eqb_refl); reflexivity.
Qed.
