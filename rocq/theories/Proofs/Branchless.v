(** Proofs about branchless_traits.h. *)
From Coq Require Import Bool Arith.
From Verif Require Import Model.Branchless Spec.Branchless.

Lemma projection_table : forall p T, branchless_projection p T = true <-> documented_projection p.
Proof.
  induction p as [| | | |p IH|p IH|p IH| |n]; intros T; simpl; try (split; [constructor|reflexivity]);
    try (split; [discriminate|intros H; inversion H]).
  - unfold projection_impl. split.
    + destruct p; try discriminate. constructor.
    + intros H. inversion H. reflexivity.
  - rewrite IH. split; [now constructor|]. now inversion 1.
  - rewrite IH. split; [now constructor|]. now inversion 1.
Qed.

Lemma type_eqb_spec : forall a b, type_eqb a b = true <-> a = b.
Proof.
  intros [n|n|n] [m|m|m]; simpl; try (split; discriminate); rewrite Nat.eqb_eq; (split; [now intros ->|now injection 1]).
Qed.

Lemma same_type_spec : forall U t, same_type U (unqualified, t) = true <-> U = no_qualifiers t.
Proof.
  intros [[c v r] u] t. unfold same_type, no_qualifiers, unqualified. simpl. rewrite !andb_true_iff, type_eqb_spec. split.
  - intros (((H1 & H2) & H3) & ->). destruct c, v, r; try discriminate. reflexivity.
  - intros E. injection E as -> -> -> ->. auto.
Qed.

Lemma arithmetic_spec : forall t, is_arithmetic (unqualified, t) = true <-> arithmetic t.
Proof.
  unfold is_arithmetic, arithmetic, integral. intros [n|n|n]; simpl; split; auto; try discriminate.
  - left. now exists n.
  - right. now exists n.
  - intros [[m H]|[m H]]; discriminate.
Qed.

Lemma arithmetic_no_reference : forall T, is_reference T = false -> (is_arithmetic T = true <-> arithmetic (snd T)).
Proof. intros T H. rewrite <- arithmetic_spec. unfold is_arithmetic. rewrite H. reflexivity. Qed.

Lemma integral_no_reference : forall T, is_reference T = false -> (is_integral T = true <-> integral (snd T)).
Proof.
  intros [q t] H. unfold is_integral, integral. rewrite H. simpl. destruct t; split; auto; try discriminate.
  - now exists n.
  - intros [m E]. discriminate.
  - intros [m E]. discriminate.
Qed.

Section Table.
Variable invoke_result : projection -> qualified_type -> qualified_type.
Variable result : projection -> type -> type.
Hypothesis HR : forall p T, snd (invoke_result p T) = result p (snd T).

Ltac inv := let H := fresh in intros H; inversion H; subst; clear H.

Lemma comparison_table : forall c T, no_order c \/ (no_projection c /\ is_reference T = false) ->
  (branchless_comparison invoke_result c T = true <-> documented_comparison result c (snd T)).
Proof.
  induction c as [o| |o| | | | | | | |c IH|c IH p|c IH|c IH|n]; intros T HC; cbn [branchless_comparison comparison_impl]; unfold remove_cvref.
  - destruct o as [U|]; [rewrite andb_true_iff, same_type_spec|]; rewrite arithmetic_spec; (split; [|inv; auto]).
    + intros [-> H]. now constructor.
    + now constructor.
  - rewrite arithmetic_spec. split; [now constructor|inv; auto].
  - destruct o as [U|]; [rewrite andb_true_iff, same_type_spec|]; rewrite arithmetic_spec; (split; [|inv; auto]).
    + intros [-> H]. now constructor.
    + now constructor.
  - rewrite arithmetic_spec. split; [now constructor|inv; auto].
  - destruct HC as [[]|[_ HT]]. rewrite arithmetic_no_reference by auto. split; [now constructor|inv; auto].
  - destruct HC as [[]|[_ HT]]. rewrite arithmetic_no_reference by auto. split; [now constructor|inv; auto].
  - destruct HC as [[]|[_ HT]]. rewrite integral_no_reference by auto. split; [now constructor|inv; auto].
  - destruct HC as [[]|[_ HT]]. rewrite integral_no_reference by auto. split; [now constructor|inv; auto].
  - destruct HC as [[]|[_ HT]]. rewrite integral_no_reference by auto. split; [now constructor|inv; auto].
  - destruct HC as [[]|[_ HT]]. rewrite integral_no_reference by auto. split; [now constructor|inv; auto].
  - rewrite IH by auto. split; [now constructor|inv; auto].
  - destruct HC as [HO|[[] _]]. rewrite andb_true_iff, IH by (left; exact HO). rewrite HR. unfold is_probably_branchless_projection. simpl.
    rewrite projection_table. split; [intros [H1 H2]; now constructor|inv; auto].
  - rewrite IH by auto. split; [now constructor|inv; auto].
  - rewrite IH by auto. split; [now constructor|inv; auto].
  - split; [discriminate|inv].
Qed.

Lemma comparison_trait : forall q c T, no_order c \/ (no_projection c /\ (is_reference T = false \/ is_qualified q = true)) ->
  (is_probably_branchless_comparison invoke_result (q, c) T = true <-> documented_comparison result c (snd T)).
Proof.
  intros q c T HC. unfold is_probably_branchless_comparison. cbn [fst snd]. destruct (is_qualified q).
  - rewrite comparison_table; [reflexivity|]. destruct HC as [HC|[HC _]]; auto.
  - apply comparison_table. destruct HC as [HC|[HC [HT|HT]]]; auto. discriminate.
Qed.

Lemma branchless_algorithm : forall c p ref value, no_order c \/ no_projection c ->
  (is_branchless invoke_result c p ref value = true <-> documented_comparison result c (result p (snd ref)) /\ documented_projection p).
Proof.
  intros c p ref value HC. unfold is_branchless. rewrite andb_true_iff, comparison_trait.
  - unfold projected_t, remove_cvref. cbn [snd]. rewrite HR. unfold is_probably_branchless_projection. cbn [fst snd is_qualified unqualified].
    simpl. rewrite projection_table. reflexivity.
  - destruct HC; auto.
Qed.
End Table.
