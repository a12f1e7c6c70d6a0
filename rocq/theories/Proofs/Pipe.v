(** Composition of projections. *)
From Coq Require Import List Bool.
From Verif Require Import Model.Pipe Spec.Pipe.
Import ListNotations.

Section Pipe.
Context {V : Type}.
Implicit Types l r p : projection V.

(** What each pair of operands gives. *)
Lemma pipe_eq : forall cpp20 l r, (l = StdIdentity \/ r = StdIdentity -> cpp20 = true) ->
  pipe cpp20 l r =
  if inherits l || inherits r then
    match l, r with
    | UtilityIdentity, StdIdentity | StdIdentity, UtilityIdentity => AmbiguousOperator
    | _, (UtilityIdentity | StdIdentity) => Is l
    | (UtilityIdentity | StdIdentity), _ => Is r
    | _, _ => Is (Piped l r)
    end
  else NoOperator.
Proof. intros cpp20 l r H. destruct l, r; try (rewrite H by auto); destruct cpp20; reflexivity. Qed.
Lemma pipe_call : forall cpp20 l r p, (l = StdIdentity \/ r = StdIdentity -> cpp20 = true) -> pipe cpp20 l r = Is p ->
  (forall x, call p x = call r (call l x)) /\ is_transparent p = is_transparent l && is_transparent r.
Proof.
  intros cpp20 l r p H E. rewrite pipe_eq in E by auto. destruct l, r; simpl in E; try discriminate; injection E as <-; split; auto; intros; simpl;
    rewrite ?andb_true_r; reflexivity.
Qed.
End Pipe.
