(** Proofs about refined.h. *)
From Coq Require Import Bool Arith.
From Verif Require Import Model.Branchless Model.MetricsTools Model.Refined.

Lemma refined_documented : forall R (refine : refiner R) T v,
  (v = Lvalue \/ v = Rvalue \/ refine true T = refine false T) ->
  refined refine T v = match refine false T with Some r => Refined r | None => Original end.
Proof.
  intros R refine T v HV. unfold refined, refined_first, refined_second.
  assert (E : refine (constant_expression v) T = refine false T) by (destruct HV as [->|[->|E]]; auto; destruct v; auto).
  rewrite E. now destruct (refine false T).
Qed.

Lemma facade_compiles_iff : forall iterable ref v b,
  facade_compiles iterable ref (v, b) = true <->
  (iterable (snd ref) = false /\ iterable b = true) \/
  (iterable (snd ref) = true /\ b = snd ref /\ (referenced (fst ref) = NoReference \/ is_const (fst ref) = true \/ v = Lvalue)).
Proof.
  intros iterable [[k w r] x] v b. unfold facade_compiles, refined_t, facade_function, refined, refined_first, refined_second,
    refine_case_insensitive_less, can_be_refined_for. simpl. destruct (iterable x) eqn:E; simpl.
  - unfold binds. simpl. rewrite andb_true_r, andb_true_iff, andb_true_iff, Nat.eqb_eq. split.
    + intros (-> & _ & H). right. repeat split; auto. destruct r; auto; destruct k; auto; destruct v; auto; discriminate.
    + intros [[H _]|(_ & -> & H)]; [discriminate|]. repeat split; auto. destruct r; auto; destruct k; auto;
        destruct H as [H|[H|H]]; try discriminate; now subst.
  - rewrite andb_true_iff. split; [tauto|]. intros [H|[H _]]; [tauto|discriminate].
Qed.
