(** What merging means on lists. *)
From Coq Require Import List Arith Lia Permutation Bool.
From Verif Require Import Spec.Order Lang.Mem Proofs.Wp Proofs.OrderLib Proofs.Heap.
Import ListNotations.

Section MergeLib.
Context {A : Type} (lt : A -> A -> bool).

(** [ys] is the stable merge of [l1] and [l2], if they are sorted, and holds their elements anyway. *)
Definition is_merge (l1 l2 ys : list A) : Prop :=
  Permutation (l1 ++ l2) ys /\
  (strict_weak_order lt -> sorted lt l1 -> sorted lt l2 -> ys = ssort lt (l1 ++ l2)).

Lemma is_merge_length : forall l1 l2 ys, is_merge l1 l2 ys -> length ys = length l1 + length l2.
Proof. intros l1 l2 ys [H _]. apply Permutation_length in H. rewrite app_length in H. auto. Qed.

Lemma is_merge_merge : forall l1 l2, is_merge l1 l2 (merge lt l1 l2).
Proof. intros. split; [apply merge_perm|]. intros. now apply merge_sorted_eq. Qed.

Lemma is_merge_nil_l : forall l, is_merge [] l l.
Proof. intros. split; auto. intros. simpl. now rewrite ssort_id. Qed.
Lemma is_merge_nil_r : forall l, is_merge l [] l.
Proof. intros. split; rewrite app_nil_r; auto. intros. now rewrite ssort_id. Qed.

(** Backward merge. *)
Lemma sorted_rev : forall l, sorted lt l -> sorted (fun x y => lt y x) (rev l).
Proof.
  induction l as [|a l IH]; simpl; intros HS. { apply sorted_nil. }
  apply sorted_cons in HS as [H1 H2]. apply sorted_app. split; [auto|]. split; [apply sorted_one|].
  intros x y Hx [<-|[]]. apply in_rev in Hx. apply H1. auto.
Qed.
End MergeLib.

Section MergeLib2.
Context {A : Type} (lt : A -> A -> bool).
Notation flt := (fun x y => lt y x).

Lemma sorted_rev' : forall l, sorted flt l -> sorted lt (rev l).
Proof. intros l H. apply (sorted_rev flt) in H. exact H. Qed.

Lemma filter_rev : forall (p : A -> bool) l, filter p (rev l) = rev (filter p l).
Proof.
  induction l; simpl; auto. rewrite filter_app, IHl. simpl. destruct (p a); simpl; auto. now rewrite app_nil_r.
Qed.
Lemma same_flip : forall l l', same_order_in_classes flt l l' -> same_order_in_classes lt l l'.
Proof.
  intros l l' H x. specialize (H x).
  rewrite !(filter_ext (equivalent lt x) (equivalent flt x)); auto;
    intros y; unfold equivalent; apply andb_comm.
Qed.
Lemma same_rev : forall l l', same_order_in_classes lt l l' -> same_order_in_classes lt (rev l) (rev l').
Proof. intros l l' H x. rewrite !filter_rev. now rewrite H. Qed.

Lemma is_merge_backward : forall l1 l2, is_merge lt l1 l2 (rev (merge flt (rev l2) (rev l1))).
Proof.
  intros l1 l2. split.
  - rewrite <- Permutation_rev, <- merge_perm, <- !Permutation_rev. apply Permutation_app_comm.
  - intros HW H1 H2. apply stable_is_ssort; auto.
    + apply sorted_rev'. apply (merge_sorted flt (swo_flip _ _ HW)); apply sorted_rev; auto.
    + replace (l1 ++ l2) with (rev (rev l2 ++ rev l1)) by (rewrite rev_app_distr, !rev_involutive; auto).
      apply same_rev. apply same_flip. apply (merge_same flt (swo_flip _ _ HW)); apply sorted_rev; auto.
Qed.

(** Divide and conquer. *)
Lemma ssort_split : strict_weak_order lt -> forall a b c d, sorted lt (a ++ b) -> sorted lt (c ++ d) ->
  (forall x y, In x b -> In y c -> lt y x = true) ->
  (forall x y, In x a -> In y d -> le lt x y) ->
  ssort lt ((a ++ b) ++ (c ++ d)) = ssort lt (a ++ c) ++ ssort lt (b ++ d).
Proof.
  intros HW a b c d Sab Scd Hbc Had. symmetry. apply stable_is_ssort; auto.
  - apply sorted_app. split; [apply ssort_sorted; auto|]. split; [apply ssort_sorted; auto|].
    intros x y Hx Hy. apply (Permutation_in _ (Permutation_sym (ssort_perm lt _))) in Hx.
    apply (Permutation_in _ (Permutation_sym (ssort_perm lt _))) in Hy.
    apply sorted_app in Sab as (_ & _ & Sab). apply sorted_app in Scd as (_ & _ & Scd).
    apply in_app_iff in Hx. apply in_app_iff in Hy. destruct Hx, Hy; auto.
    apply lt_le; auto.
  - eapply same_trans; [|apply same_app; apply ssort_same; auto].
    rewrite <- !app_assoc. apply same_app; [apply same_refl|]. rewrite !app_assoc.
    apply same_app; [|apply same_refl]. apply same_swap; auto.
Qed.

Lemma ssort_cons_min : forall v l, (forall y, In y l -> le lt v y) -> ssort lt (v :: l) = v :: ssort lt l.
Proof.
  intros v l H. simpl. destruct (ssort lt l) as [|b t] eqn:E; simpl; auto.
  replace (lt b v) with false; auto. symmetry. apply H.
  apply (Permutation_in _ (Permutation_sym (ssort_perm lt _))). rewrite E. now left.
Qed.
Lemma ssort_app_max : strict_weak_order lt -> forall v l, (forall y, In y l -> le lt y v) -> ssort lt (l ++ [v]) = ssort lt l ++ [v].
Proof.
  intros HW v l H. symmetry. apply stable_is_ssort; auto.
  - apply sorted_app. split; [apply ssort_sorted; auto|]. split; [apply sorted_one|].
    intros x y Hx [<-|[]]. apply H. eapply Permutation_in; [|eauto]. symmetry. apply ssort_perm.
  - apply same_app; [apply ssort_same; auto|apply same_refl].
Qed.

Lemma is_merge_split : forall a b c d r1 r2,
  (strict_weak_order lt -> sorted lt (a ++ b) -> sorted lt (c ++ d) ->
     (forall x y, In x b -> In y c -> lt y x = true) /\ (forall x y, In x a -> In y d -> le lt x y)) ->
  is_merge lt a c r1 -> is_merge lt b d r2 -> is_merge lt (a ++ b) (c ++ d) (r1 ++ r2).
Proof.
  intros a b c d r1 r2 H [P1 S1] [P2 S2]. split.
  - rewrite <- P1, <- P2. rewrite <- !app_assoc. apply Permutation_app_head.
    rewrite !app_assoc. apply Permutation_app_tail. apply Permutation_app_comm.
  - intros HW Sab Scd. destruct (H HW Sab Scd) as [H1 H2]. rewrite ssort_split by auto.
    apply sorted_app in Sab as (? & ? & _). apply sorted_app in Scd as (? & ? & _).
    rewrite S1, S2; auto.
Qed.

(** The element [v], minimum of the upper part, is already at its place. *)
Lemma is_merge_split_min : forall a v b c d r1 r2,
  (strict_weak_order lt -> sorted lt (a ++ v :: b) -> sorted lt (c ++ d) ->
     (forall y, In y c -> lt y v = true) /\ (forall y, In y d -> le lt v y)) ->
  is_merge lt a c r1 -> is_merge lt b d r2 -> is_merge lt (a ++ v :: b) (c ++ d) (r1 ++ v :: r2).
Proof.
  intros a v b c d r1 r2 H [P1 S1] [P2 S2]. split.
  - rewrite <- P1, <- P2. rewrite <- !app_assoc. apply Permutation_app_head.
    change (v :: b ++ d) with ((v :: b) ++ d).
    rewrite !app_assoc. apply Permutation_app_tail. apply Permutation_app_comm.
  - intros HW Sab Scd. destruct (H HW Sab Scd) as [H1 H2].
    pose proof Sab as Sab0. pose proof Scd as Scd0.
    apply sorted_app in Sab as (Sa & Svb & Sab). apply sorted_cons in Svb as [Hv Sb].
    apply sorted_app in Scd as (Sc & Sd & Scd).
    rewrite ssort_split; auto.
    + rewrite S1, S2 by auto. f_equal. simpl app. rewrite ssort_cons_min; auto.
      intros y Hy. apply in_app_iff in Hy as [|]; auto.
    + intros x y [<-|Hx] Hy; auto. eapply lt_le_trans; eauto.
    + intros x y Hx Hy. eapply le_trans; [auto| |apply H2; auto]. apply Sab; simpl; auto.
Qed.

(** The element [v], maximum of the lower part, is already at its place. *)
Lemma is_merge_split_max : forall a v b c d r1 r2,
  (strict_weak_order lt -> sorted lt (a ++ b) -> sorted lt (c ++ v :: d) ->
     (forall x, In x b -> lt v x = true) /\ (forall x, In x a -> le lt x v)) ->
  is_merge lt a c r1 -> is_merge lt b d r2 -> is_merge lt (a ++ b) (c ++ v :: d) (r1 ++ v :: r2).
Proof.
  intros a v b c d r1 r2 H [P1 S1] [P2 S2].
  replace (c ++ v :: d) with ((c ++ [v]) ++ d) in * by (rewrite <- app_assoc; auto).
  replace (r1 ++ v :: r2) with ((r1 ++ [v]) ++ r2) by (rewrite <- app_assoc; auto).
  split.
  - rewrite <- P1, <- P2. rewrite <- !app_assoc. apply Permutation_app_head.
    rewrite !app_assoc. apply Permutation_app_tail. rewrite <- app_assoc. apply Permutation_app_comm.
  - intros HW Sab Scd. destruct (H HW Sab Scd) as [H1 H2].
    pose proof Sab as Sab0. pose proof Scd as Scd0.
    apply sorted_app in Sab as (Sa & Sb & Sab).
    apply sorted_app in Scd as (Scv & Sd & Scd). apply sorted_app in Scv as (Sc & _ & Hv).
    rewrite ssort_split; auto.
    + rewrite S1, S2 by auto. f_equal. rewrite app_assoc, ssort_app_max; auto.
      intros y Hy. apply in_app_iff in Hy as [|]; auto. apply Hv; simpl; auto.
    + intros x y Hx Hy. apply in_app_iff in Hy as [|[<-|[]]]; auto.
      eapply le_lt_trans; [auto| |apply H1; auto]. apply Hv; simpl; auto.
    + intros x y Hx Hy. eapply le_trans; [auto|apply H2; auto|]. apply Scd; auto.
      apply in_app_iff. simpl. auto.
Qed.

(** Elements of the left part that are not greater than the first element of the right part. *)
Lemma is_merge_skip : forall l1 l2 r x y l2', l2 = y :: l2' ->
  lt y x = false -> is_merge lt l1 l2 r -> is_merge lt (x :: l1) l2 (x :: r).
Proof.
  intros l1 l2 r x y l2' -> Hxy [P S]. split; simpl.
  - now constructor.
  - intros HW S1 S2. pose proof S1 as S1'. apply sorted_cons in S1 as [Hx S1].
    change (sinsert lt x (ssort lt (l1 ++ y :: l2'))) with (ssort lt (x :: l1 ++ y :: l2')).
    rewrite ssort_cons_min. { f_equal. auto. }
    intros z Hz. apply in_app_iff in Hz as [|[<-|Hz]]; auto.
    apply sorted_cons in S2 as [Hy _]. eapply le_trans; [auto| |apply Hy; auto]. exact Hxy.
Qed.
End MergeLib2.
