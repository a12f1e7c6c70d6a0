(** Binary searches return the partition point. *)
From Coq Require Import List Arith Lia Permutation Bool ZArith Zify ZifyNat.
From Verif Require Import Spec.Order Lang.Mem Proofs.Wp Proofs.OrderLib Model.Search.
Import ListNotations.
Ltac Zify.zify_post_hook ::= Z.to_euclidean_division_equations.

Section Search.
Context {A : Type}.
Implicit Types (P : A -> bool) (xs u v : list A).

(** [P] holds on a prefix of [xs]. *)
Definition mono P xs : Prop := forall i j x y, i < j -> nth_error xs i = Some x -> nth_error xs j = Some y ->
  P y = true -> P x = true.

(** [u], [v] is the split of [xs] at the point where [P] ceases to hold, if there is one. *)
Definition part_at P xs u v : Prop := xs = u ++ v /\
  (mono P xs -> (forall x, In x u -> P x = true) /\ (forall x, In x v -> P x = false)).

Lemma part_at_index : forall P xs a, a <= length xs ->
  (mono P xs -> (forall i x, i < a -> nth_error xs i = Some x -> P x = true) /\
                (forall i x, a <= i -> nth_error xs i = Some x -> P x = false)) ->
  part_at P xs (firstn a xs) (skipn a xs).
Proof.
  intros P xs a Ha H. split. { now rewrite firstn_skipn. }
  intros HM. destruct (H HM) as [H1 H2]. split; intros x Hx; apply In_nth_error in Hx as (i & Hi).
  - assert (i < a). { apply nth_lt in Hi. rewrite firstn_length in Hi. lia. }
    rewrite nth_firstn_lt in Hi by lia. eapply H1; eauto.
  - rewrite nth_skipn in Hi. eapply H2; [|eauto]. lia.
Qed.

Lemma wp_get_list : forall xs pre post i x (Q : A -> mem A -> Prop), nth_error xs i = Some x ->
  Q x (pre ++ map Val xs ++ post) -> wp (get (length pre + i)) Q (pre ++ map Val xs ++ post).
Proof.
  intros xs pre post i x Q Hi HQ. eapply wp_get; eauto.
  rewrite nth_pre_map_post by (eapply nth_lt; eauto). now rewrite Hi.
Qed.

Lemma nth_some : forall X (l : list X) i, i < length l -> exists x, nth_error l i = Some x.
Proof. intros X l i H. destruct (nth_error l i) eqn:E; eauto. apply nth_error_None in E. lia. Qed.

Context {T : Type}.
Lemma lower_bound_n_wp : forall (comp : T -> T -> bool) (proj : A -> T) xs pre post f size value (Q : nat -> mem A -> Prop),
  f = length pre -> size = length xs ->
  (forall u v, part_at (fun x => comp (proj x) value) xs u v -> Q (f + length u) (pre ++ map Val xs ++ post)) ->
  wp (lower_bound_n comp proj f size value) Q (pre ++ map Val xs ++ post).
Proof.
  intros comp proj xs pre post f size value Q -> -> HQ. unfold lower_bound_n.
  set (P := fun x => comp (proj x) value) in *.
  apply wp_loop' with
    (I := fun '(first, size) m => m = pre ++ map Val xs ++ post /\ exists a, first = length pre + a /\ a + size <= length xs /\
       (mono P xs -> (forall i x, i < a -> nth_error xs i = Some x -> P x = true) /\
                     (forall i x, a + size <= i -> nth_error xs i = Some x -> P x = false)))
    (mu := fun '(first, size) => size).
  - split; auto. exists 0. cj; try lia. intros _. split; intros i x Hi Hx; [lia|].
    apply nth_lt in Hx. lia.
  - lia.
  - intros [first size] m (-> & a & -> & Hle & HP). destruct (Nat.ltb_spec 0 size).
    + destruct (nth_some _ xs (a + size / 2)) as (x & Hx); [lia|].
      apply wp_bind. replace (length pre + a + size / 2) with (length pre + (a + size / 2)) by lia.
      eapply wp_get_list; eauto.
      destruct (comp (proj x) value) eqn:E; apply wp_ret.
      * split; [|lia]. split; auto. exists (S (a + size / 2)). cj; try lia.
        intros HM. destruct (HP HM) as [H1 H2]. split.
        -- intros i y Hi Hy. destruct (Nat.eq_dec i (a + size / 2)) as [->|].
           ++ rewrite Hx in Hy. injection Hy as ->. auto.
           ++ apply (HM i (a + size / 2) y x); auto. lia.
        -- intros i y Hi Hy. apply (H2 i); auto. lia.
      * split; [|lia]. split; auto. exists a. cj; try lia.
        intros HM. destruct (HP HM) as [H1 H2]. split; auto.
        intros i y Hi Hy. destruct (Nat.eq_dec i (a + size / 2)) as [->|].
        -- rewrite Hx in Hy. injection Hy as ->. auto.
        -- destruct (P y) eqn:EP; auto.
           assert (P x = true) by (apply (HM (a + size / 2) i x y); auto; lia).
           unfold P in *. congruence.
    + apply wp_ret. assert (size = 0) by lia. subst size.
      replace (length pre + a) with (length pre + length (firstn a xs)) by (rewrite firstn_length; lia).
      apply HQ with (v := skipn a xs). apply part_at_index; [lia|].
      intros HM. destruct (HP HM) as [H1 H2]. split; auto.
      intros i x Hi Hx. apply (H2 i x); auto. lia.
Qed.

Lemma lower_bound_wp : forall (comp : T -> T -> bool) (proj : A -> T) xs pre post f l value (Q : nat -> mem A -> Prop),
  f = length pre -> l = f + length xs ->
  (forall u v, part_at (fun x => comp (proj x) value) xs u v -> Q (f + length u) (pre ++ map Val xs ++ post)) ->
  wp (lower_bound comp proj f l value) Q (pre ++ map Val xs ++ post).
Proof.
  intros comp proj xs pre post f l value Q -> -> HQ. unfold lower_bound.
  apply lower_bound_n_wp; auto. lia.
Qed.

Lemma upper_bound_n_wp : forall (comp : T -> T -> bool) (proj : A -> T) xs pre post f size value (Q : nat -> mem A -> Prop),
  f = length pre -> size = length xs ->
  (forall u v, part_at (fun x => negb (comp value (proj x))) xs u v -> Q (f + length u) (pre ++ map Val xs ++ post)) ->
  wp (upper_bound_n comp proj f size value) Q (pre ++ map Val xs ++ post).
Proof. intros. unfold upper_bound_n. apply lower_bound_n_wp; auto. Qed.

Lemma upper_bound_wp : forall (comp : T -> T -> bool) (proj : A -> T) xs pre post f l value (Q : nat -> mem A -> Prop),
  f = length pre -> l = f + length xs ->
  (forall u v, part_at (fun x => negb (comp value (proj x))) xs u v -> Q (f + length u) (pre ++ map Val xs ++ post)) ->
  wp (upper_bound comp proj f l value) Q (pre ++ map Val xs ++ post).
Proof. intros. subst. unfold upper_bound. apply lower_bound_n_wp; auto. lia. Qed.

Lemma lower_monobound_n_wp : forall (comp : T -> T -> bool) (proj : A -> T) xs pre post f size value (Q : nat -> mem A -> Prop),
  f = length pre -> size = length xs ->
  (forall u v, part_at (fun x => comp (proj x) value) xs u v -> Q (f + length u) (pre ++ map Val xs ++ post)) ->
  wp (lower_monobound_n comp proj f size value) Q (pre ++ map Val xs ++ post).
Proof.
  intros comp proj xs pre post f size value Q -> -> HQ. unfold lower_monobound_n.
  set (P := fun x => comp (proj x) value) in *.
  destruct (Nat.eqb_spec (length xs) 0) as [E0|E0].
  { apply wp_ret. destruct xs; [|simpl in E0; lia]. replace (length pre) with (length pre + length (@nil A)) by (simpl; lia).
    apply HQ with (v := []). split; auto. simpl. tauto. }
  apply wp_bind. apply wp_loop' with
    (I := fun '(first, size) m => m = pre ++ map Val xs ++ post /\ exists a, first = length pre + a /\ a + size <= length xs /\ 1 <= size /\
       (mono P xs -> (forall i x, i < a -> nth_error xs i = Some x -> P x = true) /\
                     (forall i x, a + size <= i -> nth_error xs i = Some x -> P x = false)))
    (mu := fun '(first, size) => size).
  - split; auto. exists 0. cj; try lia. intros _. split; intros i x Hi Hx; [lia|].
    apply nth_lt in Hx. lia.
  - lia.
  - intros [first size] m (-> & a & -> & Hle & Hs & HP). destruct (Nat.ltb_spec 1 size).
    + destruct (nth_some _ xs (a + size / 2)) as (x & Hx); [lia|].
      apply wp_bind. replace (length pre + a + size / 2) with (length pre + (a + size / 2)) by lia.
      eapply wp_get_list; eauto. apply wp_ret.
      destruct (comp (proj x) value) eqn:E.
      * split; [|lia]. split; auto. exists (a + size / 2). cj; try lia.
        intros HM. destruct (HP HM) as [H1 H2]. split.
        -- intros i y Hi Hy. apply (HM i (a + size / 2) y x); auto.
        -- intros i y Hi Hy. apply (H2 i); auto. lia.
      * split; [|lia]. split; auto. exists a. cj; try lia.
        intros HM. destruct (HP HM) as [H1 H2]. split; auto.
        intros i y Hi Hy. destruct (P y) eqn:EP; auto.
        destruct (Nat.eq_dec i (a + size / 2)) as [->|].
        { unfold P in *. congruence. }
        assert (P x = true) by (apply (HM (a + size / 2) i x y); auto; lia).
        unfold P in *. congruence.
    + apply wp_ret. assert (size = 1) by lia. subst size.
      destruct (nth_some _ xs a) as (x & Hx); [lia|].
      apply wp_bind. eapply wp_get_list; eauto. apply wp_ret.
      destruct (comp (proj x) value) eqn:E.
      * replace (S (length pre + a)) with (length pre + length (firstn (S a) xs)) by (rewrite firstn_length; lia).
        apply HQ with (v := skipn (S a) xs). apply part_at_index; [lia|].
        intros HM. destruct (HP HM) as [H1 H2]. split.
        -- intros i y Hi Hy. destruct (Nat.eq_dec i a) as [->|].
           ++ unfold P. congruence.
           ++ apply (H1 i); auto. lia.
        -- intros i y Hi Hy. apply (H2 i); auto. lia.
      * replace (length pre + a) with (length pre + length (firstn a xs)) by (rewrite firstn_length; lia).
        apply HQ with (v := skipn a xs). apply part_at_index; [lia|].
        intros HM. destruct (HP HM) as [H1 H2]. split; auto.
        intros i y Hi Hy. destruct (Nat.eq_dec i a) as [->|].
        -- unfold P. congruence.
        -- apply (H2 i); auto. lia.
Qed.
End Search.

Section SortedMono.
Context {A : Type} (lt : A -> A -> bool).
Hypothesis HW : strict_weak_order lt.

Lemma mono_lt : forall xs v, sorted lt xs -> mono (fun x => lt x v) xs.
Proof.
  intros xs v HS i j x y Hij Hi Hj Hy.
  eapply le_lt_trans; eauto. red. eapply HS; eauto.
Qed.
Lemma mono_ngt : forall xs v, sorted lt xs -> mono (fun x => negb (lt v x)) xs.
Proof.
  intros xs v HS i j x y Hij Hi Hj Hy. apply negb_true_iff in Hy. apply negb_true_iff.
  change (le lt x v). eapply le_trans; [eauto| |exact Hy]. red. eapply HS; eauto.
Qed.
End SortedMono.
