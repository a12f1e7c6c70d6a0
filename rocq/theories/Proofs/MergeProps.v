(** The statements of Props/Merge.v from the triples. *)
From Coq Require Import List Arith Lia Permutation Bool.
From Verif Require Import Spec.Order Lang.Mem Spec.Sorts Proofs.Wp Proofs.OrderLib Model.Basic Proofs.Basic
  Model.Rotate Proofs.RotateGcd Model.Search Proofs.Search Model.Buffer Model.Merge Proofs.MergeLib Proofs.MergeSort.
Import ListNotations.

Section Props.
Context {A T : Type} (comp : T -> T -> bool) (proj : A -> T).
Notation lt := (by_proj comp proj).

Lemma merge_sorter_sorts_stably : forall cat triv o,
  cat = Bidirectional \/ cat = RandomAccess ->
  strict_weak_order comp -> sorts_stably lt (merge_sorter comp proj cat triv o).
Proof.
  intros cat triv o Hc HW. apply sorts_stably_stab; auto. intros. apply merge_sorter_stab.
  destruct Hc; congruence.
Qed.

Lemma merge_sorter_forward_sorts_stably : forall triv (o : oracle),
  (forall p, o p = true) \/ (forall p, o p = false) ->
  strict_weak_order comp -> sorts_stably lt (merge_sorter comp proj Forward triv o).
Proof. intros triv o Ho HW. apply sorts_stably_stab; auto. intros. apply merge_sorter_stab. auto. Qed.

Lemma merge_sorter_permutes : forall cat triv (o : oracle),
  cat = Bidirectional \/ cat = RandomAccess \/ (cat = Forward /\ ((forall p, o p = true) \/ (forall p, o p = false))) ->
  permutes (merge_sorter comp proj cat triv o).
Proof.
  intros cat triv o H. apply (permutes_stab comp proj). intros. apply merge_sorter_stab.
  intros ->. destruct H as [H|[H|[_ H]]]; try congruence. auto.
Qed.

Lemma bubble_sort_permutes : permutes (fun first last => bubble_sort comp proj first (last - first)).
Proof.
  apply (permutes_stab comp proj). intros. apply bubble_sort_stab; auto; [lia|]. eauto.
Qed.

Lemma rotate_rotates : forall (cat : category) (triv : bool) (p r : list A) (pre post : mem A),
  rotate cat triv (length pre) (length pre + length p) (length pre + length p + length r)
    (pre ++ map Val (p ++ r) ++ post)
  = Ok (length pre + length r) (pre ++ map Val (r ++ p) ++ post).
Proof.
  intros. assert (H : wp (rotate cat triv (length pre) (length pre + length p) (length pre + length p + length r))
    (fun x m => x = length pre + length r /\ m = pre ++ map Val (r ++ p) ++ post) (pre ++ map Val (p ++ r) ++ post)).
  { apply rotate_wp; auto. }
  apply wp_ok in H as (x & m & E & -> & ->). auto.
Qed.

Lemma inplace_merge_merges : forall (cat : category) (triv : bool) (o : oracle) (l1 l2 : list A) (pre post : mem A),
  cat = Bidirectional \/ cat = RandomAccess -> l2 <> [] ->
  strict_weak_order comp -> sorted lt l1 -> sorted lt l2 ->
  exists ys, is_stable_sorting_of lt (l1 ++ l2) ys /\
  inplace_merge comp proj cat triv o (length pre) (length pre + length l1) (length pre + length l1 + length l2)
    (pre ++ map Val (l1 ++ l2) ++ post)
  = Ok tt (pre ++ map Val ys ++ post).
Proof.
  intros cat triv o l1 l2 pre post Hc Hne HC S1 S2. pose proof (swo_by_proj _ _ comp proj HC) as HW.
  exists (ssort lt (l1 ++ l2)). split; [now apply ssort_stable|].
  assert (H : wp (inplace_merge comp proj cat triv o (length pre) (length pre + length l1) (length pre + length l1 + length l2))
    (fun _ m => m = pre ++ map Val (ssort lt (l1 ++ l2)) ++ post) (pre ++ map Val (l1 ++ l2) ++ post)).
  { apply inplace_merge_wp; auto. { destruct Hc; congruence. } intros ys [_ H]. now rewrite H. }
  apply wp_ok in H as ([] & m & E & ->). auto.
Qed.

Lemma comp_le_lt : strict_weak_order comp -> forall x y z, comp y x = false -> comp y z = true -> comp x z = true.
Proof. intros HC x y z H1 H2. eapply (le_lt_trans comp); eauto. Qed.

Lemma lower_bound_finds : forall (xs : list A) (v : T) (pre post : mem A),
  strict_weak_order comp -> sorted lt xs ->
  exists k, lower_bound comp proj (length pre) (length pre + length xs) v (pre ++ map Val xs ++ post)
    = Ok (length pre + k) (pre ++ map Val xs ++ post) /\ k <= length xs /\
    (forall x, In x (firstn k xs) -> comp (proj x) v = true) /\
    (forall x, In x (skipn k xs) -> comp (proj x) v = false).
Proof.
  intros xs v pre post HC HS.
  assert (H : wp (lower_bound comp proj (length pre) (length pre + length xs) v)
    (fun r m => m = pre ++ map Val xs ++ post /\ exists u w, r = length pre + length u /\ part_at (fun x => comp (proj x) v) xs u w)
    (pre ++ map Val xs ++ post)).
  { apply lower_bound_wp; auto. intros u w H. split; auto. exists u, w. auto. }
  apply wp_ok in H as (r & m & E & -> & u & w & -> & -> & H).
  destruct H as [H1 H2].
  { intros i j x y Hij Hi Hj Hy. apply (comp_le_lt HC (proj x) (proj y) v); auto. apply (HS i j); auto. }
  exists (length u). split; auto. rewrite app_length. split; [lia|].
  rewrite firstn_app, firstn_all, Nat.sub_diag, firstn_O, app_nil_r.
  rewrite skipn_app, skipn_all, Nat.sub_diag. simpl. auto.
Qed.

Lemma upper_bound_finds : forall (xs : list A) (v : T) (pre post : mem A),
  strict_weak_order comp -> sorted lt xs ->
  exists k, upper_bound comp proj (length pre) (length pre + length xs) v (pre ++ map Val xs ++ post)
    = Ok (length pre + k) (pre ++ map Val xs ++ post) /\ k <= length xs /\
    (forall x, In x (firstn k xs) -> comp v (proj x) = false) /\
    (forall x, In x (skipn k xs) -> comp v (proj x) = true).
Proof.
  intros xs v pre post HC HS.
  assert (H : wp (upper_bound comp proj (length pre) (length pre + length xs) v)
    (fun r m => m = pre ++ map Val xs ++ post /\ exists u w, r = length pre + length u /\ part_at (fun x => negb (comp v (proj x))) xs u w)
    (pre ++ map Val xs ++ post)).
  { apply upper_bound_wp; auto. intros u w H. split; auto. exists u, w. auto. }
  apply wp_ok in H as (r & m & E & -> & u & w & -> & -> & H).
  destruct H as [H1 H2].
  { intros i j x y Hij Hi Hj Hy. apply negb_true_iff in Hy. apply negb_true_iff.
    apply (le_trans comp HC (proj x) (proj y) v); auto. apply (HS i j); auto. }
  exists (length u). split; auto. rewrite app_length. split; [lia|].
  rewrite firstn_app, firstn_all, Nat.sub_diag, firstn_O, app_nil_r.
  rewrite skipn_app, skipn_all, Nat.sub_diag. simpl. split.
  - intros x Hx. apply negb_true_iff; auto.
  - intros x Hx. apply negb_false_iff; auto.
Qed.
End Props.
