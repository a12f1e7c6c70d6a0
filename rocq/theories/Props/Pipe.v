(** C79: composition of projections with operator|. *)
From Coq Require Import List Bool Arith.
From Verif Require Import Model.Pipe Spec.Pipe Proofs.Pipe.
Import ListNotations.

(** std::identity can only appear in C++20. *)
Definition valid_operands {V} (cpp20 : bool) (lhs rhs : projection V) : Prop := lhs = StdIdentity \/ rhs = StdIdentity -> cpp20 = true.

(** The result applies the left operand, then the right one, and is transparent exactly when both are. *)
Theorem C79_pipe_composes :
  forall (V : Type) (cpp20 : bool) (lhs rhs p : projection V), valid_operands cpp20 lhs rhs -> pipe cpp20 lhs rhs = Is p ->
    (forall x, call p x = in_turn [call lhs; call rhs] x) /\
    (is_transparent p = true <-> is_transparent lhs = true /\ is_transparent rhs = true).
Proof.
  intros V cpp20 lhs rhs p HV E. destruct (pipe_call cpp20 lhs rhs p HV E) as [H1 H2]. split; [exact H1|]. rewrite H2. apply andb_true_iff.
Qed.
Print Assumptions C79_pipe_composes.

(** How a chain of three is put in parentheses does not matter. *)
Theorem C79_pipe_associative :
  forall (V : Type) (cpp20 : bool) (a b c ab bc l r : projection V), cpp20 = true ->
    pipe cpp20 a b = Is ab -> pipe cpp20 ab c = Is l -> pipe cpp20 b c = Is bc -> pipe cpp20 a bc = Is r ->
    forall x, call l x = in_turn [call a; call b; call c] x /\ call r x = call l x.
Proof.
  intros V cpp20 a b c ab bc l r HC E1 E2 E3 E4 x.
  destruct (pipe_call cpp20 a b ab ltac:(auto) E1) as [H1 _], (pipe_call cpp20 ab c l ltac:(auto) E2) as [H2 _],
    (pipe_call cpp20 b c bc ltac:(auto) E3) as [H3 _], (pipe_call cpp20 a bc r ltac:(auto) E4) as [H4 _].
  rewrite H4, H3, H2, H1. auto.
Qed.
Print Assumptions C79_pipe_associative.

(** The expression is well-formed if one operand inherits from projection_base, except with one identity of each kind; then an operand that is an
    identity gives the other operand itself. *)
Theorem C79_pipe_well_formed :
  forall (V : Type) (cpp20 : bool) (lhs rhs : projection V), valid_operands cpp20 lhs rhs ->
    ((exists p, pipe cpp20 lhs rhs = Is p) <->
     inherits lhs || inherits rhs = true /\ (lhs, rhs) <> (UtilityIdentity, StdIdentity) /\ (lhs, rhs) <> (StdIdentity, UtilityIdentity)) /\
    (forall p, pipe cpp20 lhs rhs = Is p ->
       (rhs = UtilityIdentity \/ rhs = StdIdentity -> p = lhs) /\ (lhs = UtilityIdentity \/ lhs = StdIdentity -> p = rhs)).
Proof.
  intros V cpp20 lhs rhs HV. split.
  - rewrite pipe_eq by auto. split.
    + intros (p & E). destruct lhs, rhs; simpl in E |- *; try discriminate; repeat split; congruence.
    + intros (E & H1 & H2). rewrite E. destruct lhs, rhs; try (exfalso; congruence); eauto.
  - intros p E. rewrite pipe_eq in E by auto.
    destruct lhs, rhs; simpl in E; try discriminate; injection E as <-; split; intros [H|H]; try discriminate; reflexivity.
Qed.
Print Assumptions C79_pipe_well_formed.

(** docs/Chainable-projections.md: "If one of the arguments to operator| is either utility::identity or std::identity, then the other argument is returned
    directly."  Not if the arguments are those two: the call is ambiguous. *)
Theorem C79_pipe_identities_refuted :
  forall V : Type, pipe true (@UtilityIdentity V) StdIdentity = AmbiguousOperator /\ pipe true (@StdIdentity V) UtilityIdentity = AmbiguousOperator.
Proof. split; reflexivity. Qed.
Print Assumptions C79_pipe_identities_refuted.

(** [&wrapper::value | my_negate | utility::identity{}], and a lambda with std::identity. *)
Example C79_case :
  let value := Other false (fun x => x / 10) in let negate := Inherits true (fun x => 100 - x) in
  (exists p, pipe true value negate = Is p /\ pipe true p UtilityIdentity = Is p /\ pipe true StdIdentity p = Is p /\
     call p 42 = 96 /\ is_transparent p = false) /\
  pipe true value StdIdentity = NoOperator /\ pipe false value UtilityIdentity = Is value.
Proof. split; [|split; reflexivity]. eexists. split; [reflexivity|]. repeat split. Qed.
