(** Lemmas on the lists of Lang/Lists.v. *)
From Coq Require Import List Arith Bool Lia Permutation.
From Verif Require Import Spec.Order Lang.Lists Spec.Lists Proofs.OrderLib.
Import ListNotations.

Lemma iter_rule : forall (S X : Type) (body : S -> out (S + X)) (Inv : S -> Prop) (mu : S -> nat) (Q : X -> Prop),
  (forall s, Inv s -> match body s with Done (inl s') => Inv s' /\ mu s' < mu s | Done (inr x) => Q x | _ => False end) ->
  forall fuel s, Inv s -> mu s < fuel -> exists x, iter fuel body s = Done x /\ Q x.
Proof.
  intros S X body Inv mu Q H fuel. induction fuel as [|fuel IH]; intros s Hs Hf; [lia|].
  simpl. specialize (H s Hs). destruct (body s) as [[s'|x]| |]; simpl; try contradiction.
  - apply IH; [apply H | destruct H; lia].
  - eauto.
Qed.

Section Ops.
Context {A : Type}.
Implicit Types (l o : list (node A)).

Definition uniq l := NoDup (map fst l).

Lemma find_index_nth : forall l k i a, uniq l -> nth_error l k = Some (i, a) -> find_index i l = Some k.
Proof.
  induction l as [|[j b] l IH]; intros k i a H E; [destruct k; discriminate|].
  inversion H as [|? ? H1 H2]; subst. destruct k; simpl in E.
  - injection E as <- <-. simpl. now rewrite Nat.eqb_refl.
  - simpl. replace (j =? i) with false. { now rewrite (IH k i a H2 E). }
    symmetry. apply Nat.eqb_neq. intros ->. apply H1. apply nth_error_In in E. apply in_map_iff. now exists (i, a).
Qed.

Lemma pos_at_some : forall l k i a, nth_error l k = Some (i, a) -> pos_at l k = At i.
Proof. intros. unfold pos_at. now rewrite H. Qed.
Lemma pos_at_end : forall l k, length l <= k -> pos_at l k = End.
Proof. intros. unfold pos_at. now rewrite (proj2 (nth_error_None l k)). Qed.
Lemma at_some : forall l k, k < length l -> exists i a, nth_error l k = Some (i, a).
Proof. intros l k H. destruct (nth_error l k) as [[i a]|] eqn:E; [eauto | apply nth_error_None in E; lia]. Qed.

Lemma index_pos_at : forall l k, uniq l -> k <= length l -> index l (pos_at l k) = Some k.
Proof.
  intros l k H Hk. destruct (Nat.eq_dec k (length l)) as [->|N].
  - rewrite pos_at_end by lia. reflexivity.
  - destruct (at_some l k) as (i & a & E); [lia|]. rewrite (pos_at_some _ _ _ _ E). simpl. eapply find_index_nth; eauto.
Qed.

Lemma pos_at_before : forall l k, pos_at l k <> Before.
Proof. intros l k. unfold pos_at. destruct (nth_error l k) as [[? ?]|]; discriminate. Qed.

Lemma next_pos_at : forall l k, uniq l -> k < length l -> next l (pos_at l k) = Done (pos_at l (S k)).
Proof.
  intros l k H Hk. pose proof (index_pos_at l k H ltac:(lia)) as E. pose proof (pos_at_before l k) as N.
  unfold next. destruct (pos_at l k); [congruence| |]; rewrite E; now rewrite (proj2 (Nat.ltb_lt _ _) Hk).
Qed.

Lemma advance_pos_at : forall l n k, uniq l -> k + n <= length l -> advance l n (pos_at l k) = Done (pos_at l (k + n)).
Proof.
  intros l n. induction n as [|n IH]; intros k H Hk; simpl. { now rewrite Nat.add_0_r. }
  rewrite next_pos_at by (auto; lia). simpl. rewrite IH by (auto; lia). f_equal. f_equal. lia.
Qed.

Lemma deref_pos_at : forall l k i a, uniq l -> nth_error l k = Some (i, a) -> deref l (pos_at l k) = Done a.
Proof.
  intros l k i a H E. unfold deref. rewrite index_pos_at; [now rewrite E | auto |].
  apply Nat.lt_le_incl, nth_error_Some. congruence.
Qed.

Lemma pos_eqb_refl : forall p, pos_eqb p p = true.
Proof. destruct p; simpl; auto using Nat.eqb_refl. Qed.
Lemma pos_eqb_eq : forall p q, pos_eqb p q = true -> p = q.
Proof. destruct p, q; simpl; try discriminate; auto. intros H. apply Nat.eqb_eq in H. congruence. Qed.

Lemma pos_at_eqb : forall l i j, uniq l -> i <= length l -> j <= length l -> pos_eqb (pos_at l i) (pos_at l j) = (i =? j).
Proof.
  intros l i j H Hi Hj. destruct (i =? j) eqn:E. { apply Nat.eqb_eq in E. subst. apply pos_eqb_refl. }
  destruct (pos_eqb (pos_at l i) (pos_at l j)) eqn:P; auto. apply pos_eqb_eq in P. apply Nat.eqb_neq in E. exfalso. apply E.
  pose proof (index_pos_at l i H Hi) as A1. rewrite P, (index_pos_at l j H Hj) in A1. congruence.
Qed.
Lemma pos_at_eqb_end : forall l i, pos_eqb (pos_at l i) End = (length l <=? i).
Proof.
  intros l i. destruct (length l <=? i) eqn:E.
  - apply Nat.leb_le in E. now rewrite pos_at_end.
  - apply Nat.leb_gt in E. destruct (at_some l i E) as (j & a & N). now rewrite (pos_at_some _ _ _ _ N).
Qed.

(** The positions of a forward list. *)
Definition fpos l (k : nat) : pos := match k with 0 => Before | S k => pos_at l k end.

Lemma next_fpos : forall l k, uniq l -> k <= length l -> next l (fpos l k) = Done (pos_at l k).
Proof. intros l [|k] H Hk; [reflexivity | apply next_pos_at; auto]. Qed.
Lemma advance_fpos : forall l n k, uniq l -> k + n <= length l -> advance l n (fpos l k) = Done (fpos l (k + n)).
Proof.
  intros l n. induction n as [|n IH]; intros k H Hk; simpl. { now rewrite Nat.add_0_r. }
  rewrite next_fpos by (auto; lia). simpl. change (pos_at l k) with (fpos l (S k)). rewrite IH by (auto; lia). f_equal. f_equal. lia.
Qed.
Lemma index_after_fpos : forall l k, uniq l -> k <= length l -> index_after l (fpos l k) = Some k.
Proof.
  intros l [|k] H Hk; [reflexivity|]. simpl. destruct (at_some l k) as (i & a & E); [lia|].
  rewrite (pos_at_some _ _ _ _ E). simpl. now rewrite (find_index_nth _ _ _ _ H E).
Qed.
Lemma fpos_eqb : forall l i j, uniq l -> i <= length l -> j <= length l -> pos_eqb (fpos l i) (fpos l j) = (i =? j).
Proof.
  intros l [|i] [|j] H Hi Hj; simpl; auto.
  - pose proof (pos_at_before l j). destruct (pos_at l j); auto. congruence.
  - pose proof (pos_at_before l i). destruct (pos_at l i); auto. congruence.
  - apply pos_at_eqb; auto; lia.
Qed.

Lemma firstn_len : forall X (a b : list X), firstn (length a) (a ++ b) = a.
Proof. induction a; simpl; intros; f_equal; auto. Qed.
Lemma skipn_len : forall X (a b : list X), skipn (length a) (a ++ b) = b.
Proof. induction a; simpl; auto. Qed.
Lemma skipn_len_S : forall X (a b : list X) x, skipn (S (length a)) (a ++ x :: b) = b.
Proof. induction a; simpl; auto. Qed.

Lemma insert_remove : forall (P Q R : list (node A)) x,
  insert_at (length P) x (remove_at (length P + length Q) (P ++ Q ++ x :: R)) = P ++ x :: Q ++ R.
Proof.
  intros. unfold insert_at, remove_at. rewrite app_assoc, <- app_length, firstn_len, skipn_len_S, <- app_assoc. now rewrite firstn_len, skipn_len.
Qed.

Lemma nth_mid : forall (l1 : list (node A)) x l2, nth_error (l1 ++ x :: l2) (length l1) = Some x.
Proof. intros. rewrite nth_error_app2, Nat.sub_diag by lia. reflexivity. Qed.

Lemma splice_within_back : forall P Q R x, uniq (P ++ Q ++ x :: R) ->
  splice_within (P ++ Q ++ x :: R) (pos_at (P ++ Q ++ x :: R) (length P)) (pos_at (P ++ Q ++ x :: R) (length P + length Q)) = Done (P ++ x :: Q ++ R).
Proof.
  intros P Q R x H. assert (L : length (P ++ Q ++ x :: R) = length P + length Q + S (length R)) by (rewrite !app_length; simpl; lia).
  unfold splice_within. rewrite !index_pos_at by (auto; lia).
  replace (nth_error (P ++ Q ++ x :: R) (length P + length Q)) with (Some x) by (rewrite app_assoc, <- app_length, nth_mid; reflexivity).
  rewrite (proj2 (Nat.ltb_ge _ _)) by lia. now rewrite insert_remove.
Qed.

Lemma splice_after_within_back : forall P Q R x, uniq (P ++ Q ++ x :: R) ->
  splice_after_within (P ++ Q ++ x :: R) (fpos (P ++ Q ++ x :: R) (length P)) (fpos (P ++ Q ++ x :: R) (length P + length Q)) = Done (P ++ x :: Q ++ R).
Proof.
  intros P Q R x H. assert (L : length (P ++ Q ++ x :: R) = length P + length Q + S (length R)) by (rewrite !app_length; simpl; lia).
  unfold splice_after_within. rewrite !index_after_fpos by (auto; lia).
  replace (nth_error (P ++ Q ++ x :: R) (length P + length Q)) with (Some x) by (rewrite app_assoc, <- app_length, nth_mid; reflexivity).
  rewrite (proj2 (Nat.ltb_ge _ _)) by lia. now rewrite insert_remove.
Qed.

Lemma splice_back : forall l P Q R x j, uniq l -> l = P ++ Q ++ x :: R -> j = length P + length Q ->
  splice_within l (pos_at l (length P)) (pos_at l j) = Done (P ++ x :: Q ++ R).
Proof. intros; subst. now apply splice_within_back. Qed.
Lemma splice_after_back : forall l P Q R x j, uniq l -> l = P ++ Q ++ x :: R -> j = length P + length Q ->
  splice_after_within l (fpos l (length P)) (fpos l j) = Done (P ++ x :: Q ++ R).
Proof. intros; subst. now apply splice_after_within_back. Qed.

Lemma uniq_perm : forall l l', Permutation l l' -> uniq l -> uniq l'.
Proof. intros l l' P H. eapply Permutation_NoDup; [apply Permutation_map, P | apply H]. Qed.
Lemma uniq_app : forall l o, uniq (l ++ o) -> uniq l /\ uniq o.
Proof.
  intros l o H. unfold uniq in *. rewrite map_app in H. induction l as [|x l IH]; simpl in *. { split; [constructor | auto]. }
  inversion H; subst. destruct IH as [H1' H2']; auto. split; auto. constructor; auto. intros I. apply H2. apply in_or_app. auto.
Qed.

Lemma swap_perm : forall (P Q R : list (node A)) x, Permutation (P ++ Q ++ x :: R) (P ++ x :: Q ++ R).
Proof. intros. apply Permutation_app_head. symmetry. apply Permutation_middle. Qed.

(** Sorted lists are split by a value. *)
Lemma split_forall : forall (p : node A -> bool) l,
  (forall i j x y, i < j -> nth_error l i = Some x -> nth_error l j = Some y -> p y = true -> p x = true) ->
  exists l1 l2, l = l1 ++ l2 /\ (forall x, In x l1 -> p x = true) /\ (forall x, In x l2 -> p x = false).
Proof.
  intros p. induction l as [|a l IH]; intros H. { exists [], []. repeat split; simpl; tauto. }
  destruct (p a) eqn:E.
  - destruct IH as (l1 & l2 & -> & H1 & H2). { intros i j x y Hij X Y. apply (H (S i) (S j)); auto. lia. }
    exists (a :: l1), l2. repeat split; auto. intros x [<-|I]; auto.
  - exists [], (a :: l). repeat split; simpl; try tauto. intros x [<-|I]; auto.
    apply In_nth_error in I as (j & J). destruct (p x) eqn:Px; auto. rewrite <- E. symmetry. apply (H 0 (S j) a x); auto. lia.
Qed.

Variable lt : A -> A -> bool.
Hypothesis swo : strict_weak_order lt.

Lemma by_value_swo : strict_weak_order (by_value lt).
Proof. exact (swo_by_proj _ _ lt snd swo). Qed.

Lemma merge_nodes_merge : forall l o, merge_nodes lt l o = merge (by_value lt) l o.
Proof.
  induction l as [|x l IH]; [destruct o; reflexivity|]. induction o as [|y o IHo]; [reflexivity|].
  rewrite merge_cons. unfold by_value at 1. cbn [merge_nodes]. destruct (lt (snd y) (snd x)).
  - now rewrite <- IHo.
  - now rewrite IH.
Qed.

Lemma in_order_sorted : forall l, sorted (by_value lt) l -> in_order lt l = true.
Proof.
  induction l as [|[i a] l IH]; intros H; auto. apply sorted_cons in H as [H1 H2]. cbn [in_order]. rewrite (IH H2), andb_true_r.
  destruct l as [|[j b] l]; auto. specialize (H1 (j, b) (or_introl eq_refl)). unfold le, by_value in H1. simpl in H1. now rewrite H1.
Qed.

Lemma merge_with_done : forall l o, sorted (by_value lt) l -> sorted (by_value lt) o ->
  merge_with lt l o = Done (merge (by_value lt) l o).
Proof. intros l o Hl Ho. unfold merge_with. now rewrite !in_order_sorted, merge_nodes_merge. Qed.
End Ops.
