(** Moves to and from raw storage; the buffered merge. *)
From Coq Require Import List Arith Lia Permutation Bool.
From Verif Require Import Spec.Order Lang.Mem Proofs.Wp Proofs.OrderLib Model.Heap Proofs.Heap Model.Rotate Proofs.Rotate
  Model.Buffer Model.Merge Proofs.Search Proofs.MergeLib Proofs.HalfMerge.
Import ListNotations.

Section Buf.
Context {A : Type}.
Implicit Types (m pre post : mem A) (xs ys : list A).

(** [n] raw cells from [base]. *)
Definition raws (base n : nat) m : Prop := forall t, t < n -> nth_error m (base + t) = Some Raw.

Lemma raws_0 : forall base m, raws base 0 m.
Proof. intros base m t Ht. lia. Qed.
Lemma raws_le : forall base n k m, raws base n m -> k <= n -> raws base k m.
Proof. intros base n k m H Hk t Ht. apply H. lia. Qed.

Lemma nth_around : forall pre (x y : mem A) post k, length x = length y ->
  k < length pre \/ length pre + length x <= k ->
  nth_error (pre ++ x ++ post) k = nth_error (pre ++ y ++ post) k.
Proof.
  intros pre x y post k HL [H|H].
  - now rewrite !nth_error_app1 by auto.
  - rewrite !(nth_error_app2 pre) by lia. rewrite !nth_error_app2 by lia. f_equal. lia.
Qed.

(** Raw storage is not inside a range of values, so that it stays the same when the range changes. *)
Lemma raws_replace : forall base n pre xs ys post, length xs = length ys ->
  raws base n (pre ++ map Val xs ++ post) -> raws base n (pre ++ map Val ys ++ post).
Proof.
  intros base n pre xs ys post HL H t Ht. specialize (H t Ht).
  destruct (Nat.lt_ge_cases (base + t) (length pre)) as [H1|H1].
  { rewrite (nth_around _ _ (map Val xs)); auto. now rewrite !map_length. }
  destruct (Nat.lt_ge_cases (base + t) (length pre + length xs)) as [H2|H2].
  { replace (base + t) with (length pre + (base + t - length pre)) in H by lia.
    rewrite nth_pre_map_post in H by lia. destruct (nth_error xs (base + t - length pre)); discriminate. }
  rewrite (nth_around _ _ (map Val xs)); auto. now rewrite !map_length. right. rewrite map_length. lia.
Qed.

Lemma uninitialized_move_wp : forall xs f l r m (Q : nat -> mem A -> Prop), l = f + length xs ->
  (forall t x, nth_error xs t = Some x -> nth_error m (f + t) = Some (Val x)) ->
  raws r (length xs) m ->
  (forall m', length m' = length m ->
     (forall t, t < length xs -> nth_error m' (f + t) = Some Moved) ->
     (forall t x, nth_error xs t = Some x -> nth_error m' (r + t) = Some (Val x)) ->
     (forall k, ~ (f <= k < f + length xs) -> ~ (r <= k < r + length xs) -> nth_error m' k = nth_error m k) ->
     Q (r + length xs) m') ->
  wp (uninitialized_move f l r) Q m.
Proof.
  intros xs f l r m Q -> Hx Hr HQ. unfold uninitialized_move.
  assert (forall s t, s < length xs -> t < length xs -> f + s <> r + t) as Hdis.
  { intros s t Hs Ht E. destruct (nth_some _ xs s Hs) as (x & E1). apply Hx in E1. rewrite E in E1.
    rewrite Hr in E1; [discriminate|auto]. }
  apply wp_loop' with
    (I := fun '(f', r') m' => exists i, f' = f + i /\ r' = r + i /\ i <= length xs /\ length m' = length m /\
       (forall t, t < i -> nth_error m' (f + t) = Some Moved) /\
       (forall t x, t < i -> nth_error xs t = Some x -> nth_error m' (r + t) = Some (Val x)) /\
       (forall k, ~ (f <= k < f + i) -> ~ (r <= k < r + i) -> nth_error m' k = nth_error m k))
    (mu := fun '(f', _) => f + length xs - f').
  - exists 0. cj; auto; try lia.
  - lia.
  - intros [f' r'] m' (i & -> & -> & Hi & HL & H1 & H2 & H3).
    destruct (Nat.eqb_spec (f + i) (f + length xs)) as [E|E].
    + apply wp_ret. assert (i = length xs) by lia. subst i. apply HQ; auto.
      intros t x Ht. apply H2; auto. eapply nth_lt; eauto.
    + destruct (nth_some _ xs i) as (x & Ex); [lia|].
      assert (nth_error m' (f + i) = Some (Val x)) as Ev.
      { rewrite H3; auto; try lia. intros Hk. apply (Hdis i (f + i - r)); lia. }
      apply wp_bind. eapply wp_take; eauto.
      assert (f + i <> r + i) by (apply Hdis; lia).
      assert (nth_error m' (r + i) = Some Raw) as Er.
      { rewrite H3; [apply Hr; lia| |lia]. intros Hk. apply (Hdis (r + i - f) i); lia. }
      apply wp_bind. apply wp_construct. { rewrite nth_upd_ne; auto. }
      pose proof (nth_lt _ _ _ Ev). pose proof (nth_lt _ _ _ Er).
      apply wp_ret. split; [|lia]. exists (S i). cj; try lia.
      * now rewrite !upd_length.
      * intros t Ht. destruct (Nat.eq_dec t i) as [->|].
        -- rewrite nth_upd_ne by auto. apply nth_upd_eq; auto.
        -- rewrite !nth_upd_ne; [apply H1; lia|lia|]. apply not_eq_sym. apply Hdis; lia.
      * intros t y Ht Hy. destruct (Nat.eq_dec t i) as [->|].
        -- rewrite nth_upd_eq by (rewrite upd_length; auto). congruence.
        -- rewrite !nth_upd_ne; [apply H2; auto; lia| |lia]. apply Hdis; lia.
      * intros k K1 K2. rewrite !nth_upd_ne by lia. apply H3; lia.
Qed.

Lemma destroy_n_wp : forall n r m (Q : unit -> mem A -> Prop),
  (forall t, t < n -> live_at m (r + t)) ->
  (forall m', length m' = length m ->
     (forall t, t < n -> nth_error m' (r + t) = Some Raw) ->
     (forall k, ~ (r <= k < r + n) -> nth_error m' k = nth_error m k) -> Q tt m') ->
  wp (destroy_n r n) Q m.
Proof.
  intros n r m Q Hl HQ. unfold destroy_n.
  apply wp_loop' with
    (I := fun '(f, c) m' => exists i, f = r + i /\ c + i = n /\ length m' = length m /\
       (forall t, t < i -> nth_error m' (r + t) = Some Raw) /\
       (forall k, ~ (r <= k < r + i) -> nth_error m' k = nth_error m k))
    (mu := fun '(_, c) => c).
  - exists 0. cj; auto; lia.
  - lia.
  - intros [f c] m' (i & -> & Hc & HL & H1 & H2).
    destruct (Nat.eqb_spec c 0) as [E|E].
    + apply wp_ret. assert (i = n) by lia. subst i. apply HQ; auto.
    + destruct (Hl i) as (x & Ex & Hx); [lia|]. rewrite <- H2 in Ex by lia.
      apply wp_bind. eapply wp_destroy; eauto. apply wp_ret. split; [|lia].
      pose proof (nth_lt _ _ _ Ex).
      exists (S i). cj; try lia.
      * now rewrite upd_length.
      * intros t Ht. destruct (Nat.eq_dec t i) as [->|].
        -- apply nth_upd_eq; auto.
        -- rewrite nth_upd_ne by lia. apply H1. lia.
      * intros k K. rewrite nth_upd_ne by lia. apply H2. lia.
Qed.

Lemma mem_eq_range : forall pre xs ys post m', length xs = length ys ->
  (forall t x, nth_error ys t = Some x -> nth_error m' (length pre + t) = Some (Val x)) ->
  (forall k, ~ (length pre <= k < length pre + length xs) -> nth_error m' k = nth_error (pre ++ map Val xs ++ post) k) ->
  m' = pre ++ map Val ys ++ post.
Proof.
  intros pre xs ys post m' HL H1 H2. apply nth_ext. intros k.
  destruct (Nat.lt_ge_cases k (length pre)) as [K|K].
  { rewrite H2 by lia. apply nth_around; auto. now rewrite !map_length. }
  destruct (Nat.lt_ge_cases k (length pre + length xs)) as [K2|K2].
  { replace k with (length pre + (k - length pre)) by lia. rewrite nth_pre_map_post by lia.
    destruct (nth_some _ ys (k - length pre)) as (x & Hx); [lia|]. rewrite Hx. now apply H1. }
  rewrite H2 by lia. apply nth_around; rewrite ?map_length; auto.
Qed.

Lemma nth_rev : forall l t, t < length l -> nth_error (rev l) t = nth_error l (length l - S t) :> option A.
Proof.
  induction l as [|a l IH]; simpl; intros t Ht; [lia|].
  destruct (Nat.eq_dec t (length l)) as [->|].
  - rewrite nth_error_app2 by (rewrite rev_length; auto). now rewrite rev_length, !Nat.sub_diag.
  - rewrite nth_error_app1 by (rewrite rev_length; lia). rewrite IH by lia.
    replace (length l - t) with (S (length l - S t)) by lia. reflexivity.
Qed.

Context {T : Type} (comp : T -> T -> bool) (proj : A -> T).
Notation lt := (by_proj comp proj).

(** The common part of buffered_inplace_merge (first case) and of the forward recmerge. *)
Lemma half_merge_forward_wp : forall l1 l2 pre post f mi l buff n (Q : unit -> mem A -> Prop),
  f = length pre -> mi = f + length l1 -> l = mi + length l2 ->
  n <= length l1 -> n <= length l2 ->
  raws buff (length l1) (pre ++ map Val (l1 ++ l2) ++ post) ->
  Q tt (pre ++ map Val (merge lt l1 l2) ++ post) ->
  wp (let* ptr := uninitialized_move f mi buff in
      half_inplace_merge false comp proj buff ptr mi l f n ;;
      destroy_n buff (mi - f)) Q (pre ++ map Val (l1 ++ l2) ++ post).
Proof.
  intros l1 l2 pre post f mi l buff n Q -> -> -> Hn1 Hn2 HR HQ.
  set (m0 := pre ++ map Val (l1 ++ l2) ++ post) in *.
  assert (forall t x, nth_error (l1 ++ l2) t = Some x -> nth_error m0 (length pre + t) = Some (Val x)) as Hm0.
  { intros t x Hx. unfold m0. rewrite nth_pre_map_post by (eapply nth_lt; eauto). now rewrite Hx. }
  assert (forall t s, t < length l1 -> s < length l1 + length l2 -> buff + t <> length pre + s) as Hdis.
  { intros t s Ht Hs E. specialize (HR t Ht). rewrite E in HR.
    destruct (nth_some _ (l1 ++ l2) s) as (x & Hx). { rewrite app_length; lia. }
    rewrite (Hm0 _ _ Hx) in HR. discriminate. }
  apply wp_bind. apply uninitialized_move_wp with (xs := l1); auto.
  { intros t x Hx. apply Hm0. rewrite nth_error_app1; auto. eapply nth_lt; eauto. }
  intros m1 L1 U1 U2 U3.
  apply wp_bind. eapply wp_mono.
  { apply (half_inplace_merge_wp comp proj false buff (length pre + length l1) (length pre) l1 l2 m1); auto; try lia.
    constructor; auto; try lia; simpl; intros.
    - exists []. cj; auto. intros t x Hx. destruct t; discriminate.
    - rewrite U3; try lia.
      + rewrite <- Nat.add_assoc. apply Hm0. rewrite nth_error_app2 by lia. rewrite <- H0. f_equal. lia.
      + intros K. pose proof (nth_lt _ _ _ H0).
        apply (Hdis (length pre + length l1 + t - buff) (length l1 + t)); lia.
    - unfold live_at. destruct (Nat.lt_ge_cases t (length l1)).
      + rewrite U1 by auto. exists Moved. split; auto. discriminate.
      + rewrite U3; try lia.
        * destruct (nth_some _ (l1 ++ l2) t) as (x & Hx). { rewrite app_length; lia. }
          rewrite (Hm0 _ _ Hx). exists (Val x). split; auto. discriminate.
        * intros K. apply (Hdis (length pre + t - buff) t); lia.
    - unfold live_at. destruct (nth_some _ l1 t H) as (x & Hx). rewrite (U2 _ _ Hx). exists (Val x). split; auto. discriminate. }
  intros ? m2 (L2 & D1 & D2 & D3). simpl in *.
  replace (length pre + length l1 - length pre) with (length l1) by lia.
  apply destroy_n_wp; auto. intros m3 L3 E1 E2.
  replace m3 with (pre ++ map Val (merge lt l1 l2) ++ post); auto.
  symmetry. apply mem_eq_range with (xs := l1 ++ l2). { rewrite merge_length, app_length. auto. }
  - intros t z Hx. pose proof (nth_lt _ _ _ Hx) as Ht. rewrite merge_length in Ht. rewrite E2; auto.
    intros K. apply (Hdis (length pre + t - buff) t); lia.
  - intros k K. rewrite app_length in K. fold m0.
    destruct (Nat.lt_ge_cases k buff) as [K1|K1]; [|destruct (Nat.lt_ge_cases k (buff + length l1)) as [K2|K2]].
    + rewrite E2, D3, U3; auto; lia.
    + replace k with (buff + (k - buff)) by lia. rewrite E1, HR by lia. auto.
    + rewrite E2, D3, U3; auto; lia.
Qed.

Lemma half_merge_backward_wp : forall l1 l2 pre post f mi l buff n (Q : unit -> mem A -> Prop),
  f = length pre -> mi = f + length l1 -> l = mi + length l2 ->
  n <= length l1 -> n <= length l2 ->
  raws buff (length l2) (pre ++ map Val (l1 ++ l2) ++ post) ->
  Q tt (pre ++ map Val (rev (merge (fun x y => lt y x) (rev l2) (rev l1))) ++ post) ->
  wp (let* ptr := uninitialized_move mi l buff in
      half_inplace_merge true (flip_comp comp) proj ptr buff mi f l n ;;
      destroy_n buff (l - mi)) Q (pre ++ map Val (l1 ++ l2) ++ post).
Proof.
  intros l1 l2 pre post f mi l buff n Q -> -> -> Hn1 Hn2 HR HQ.
  set (m0 := pre ++ map Val (l1 ++ l2) ++ post) in *.
  assert (forall t x, nth_error (l1 ++ l2) t = Some x -> nth_error m0 (length pre + t) = Some (Val x)) as Hm0.
  { intros t x Hx. unfold m0. rewrite nth_pre_map_post by (eapply nth_lt; eauto). now rewrite Hx. }
  assert (forall t s, t < length l2 -> s < length l1 + length l2 -> buff + t <> length pre + s) as Hdis.
  { intros t s Ht Hs E. specialize (HR t Ht). rewrite E in HR.
    destruct (nth_some _ (l1 ++ l2) s) as (x & Hx). { rewrite app_length; lia. }
    rewrite (Hm0 _ _ Hx) in HR. discriminate. }
  assert (forall (l : list A) t x, nth_error (rev l) t = Some x -> t < length l /\ nth_error l (length l - S t) = Some x) as Hrev.
  { intros l t x Hx. pose proof (nth_lt _ _ _ Hx) as Ht. rewrite rev_length in Ht. split; auto.
    rewrite <- Hx. symmetry. now apply nth_rev. }
  apply wp_bind. apply uninitialized_move_wp with (xs := l2); auto.
  { intros t x Hx. rewrite <- Nat.add_assoc. apply Hm0. rewrite nth_error_app2 by lia. rewrite <- Hx. f_equal. lia. }
  intros m1 L1 U1 U2 U3.
  apply wp_bind. eapply wp_mono.
  { replace buff with (pos true (buff + length l2) (length (rev l2))) at 2 by (simpl; rewrite rev_length; lia).
    replace (length pre) with (pos true (length pre + length l1) (length (rev l1))) at 2 by (simpl; rewrite rev_length; lia).
    apply (half_inplace_merge_wp (flip_comp comp) proj true (buff + length l2) (length pre + length l1)
      (length pre + length l1 + length l2) (rev l2) (rev l1) m1); rewrite ?rev_length; auto; try lia.
    { simpl. lia. }
    { intros i j Hi Hj. simpl. intros E. apply (Hdis (length l2 - S i) (length l1 + length l2 - S j)); lia. }
    constructor; rewrite ?rev_length; auto; try lia; simpl; intros.
    - exists []. cj; auto. intros t x Hx. destruct t; discriminate.
    - apply Hrev in H0 as [Ht Hx]. replace (buff + length l2 - S t) with (buff + (length l2 - S t)) by lia. auto.
    - apply Hrev in H0 as [Ht Hx]. replace (length pre + length l1 - S t) with (length pre + (length l1 - S t)) by lia.
      rewrite U3; try lia.
      + apply Hm0. rewrite nth_error_app1 by lia. auto.
      + intros K. apply (Hdis (length pre + (length l1 - S t) - buff) (length l1 - S t)); lia.
    - unfold live_at. destruct (Nat.lt_ge_cases t (length l2)).
      + replace (length pre + length l1 + length l2 - S t) with (length pre + length l1 + (length l2 - S t)) by lia.
        rewrite U1 by lia. exists Moved. split; auto. discriminate.
      + rewrite U3; try lia.
        * destruct (nth_some _ (l1 ++ l2) (length l1 + length l2 - S t)) as (x & Hx). { rewrite app_length; lia. }
          replace (length pre + length l1 + length l2 - S t) with (length pre + (length l1 + length l2 - S t)) by lia.
          rewrite (Hm0 _ _ Hx). exists (Val x). split; auto. discriminate.
        * intros K. apply (Hdis (length pre + length l1 + length l2 - S t - buff) (length l1 + length l2 - S t)); lia.
    - unfold live_at. destruct (nth_some _ l2 (length l2 - S t)) as (x & Hx); [lia|].
      replace (buff + length l2 - S t) with (buff + (length l2 - S t)) by lia.
      rewrite (U2 _ _ Hx). exists (Val x). split; auto. discriminate. }
  intros ? m2 (L2 & D1 & D2 & D3). simpl in *. rewrite !rev_length in *.
  replace (length pre + length l1 + length l2 - (length pre + length l1)) with (length l2) by lia.
  apply destroy_n_wp.
  { intros t Ht. specialize (D2 (length l2 - S t)). replace (buff + t) with (buff + length l2 - S (length l2 - S t)) by lia.
    apply D2. lia. }
  intros m3 L3 E1 E2.
  set (mg := merge (fun x y => lt y x) (rev l2) (rev l1)) in *.
  assert (length mg = length l1 + length l2) as Lmg. { unfold mg. rewrite merge_length, !rev_length. lia. }
  replace m3 with (pre ++ map Val (rev mg) ++ post); auto.
  symmetry. apply mem_eq_range with (xs := l1 ++ l2). { rewrite rev_length, app_length. auto. }
  - intros t z Hx. apply Hrev in Hx as [Ht Hx]. rewrite E2.
    + replace (length pre + t) with (length pre + length l1 + length l2 - S (length mg - S t)) by lia.
      apply D1. exact Hx.
    + intros K. apply (Hdis (length pre + t - buff) t); lia.
  - intros k K. rewrite app_length in K. fold m0.
    destruct (Nat.lt_ge_cases k buff) as [K1|K1]; [|destruct (Nat.lt_ge_cases k (buff + length l2)) as [K2|K2]].
    + rewrite E2, D3, U3; auto; lia.
    + replace k with (buff + (k - buff)) by lia. rewrite E1, HR by lia. auto.
    + rewrite E2, D3, U3; auto; lia.
Qed.

Lemma buffered_inplace_merge_wp : forall l1 l2 pre post f mi l n1 n2 buff (Q : unit -> mem A -> Prop),
  f = length pre -> mi = f + length l1 -> l = mi + length l2 -> n1 = length l1 -> n2 = length l2 ->
  raws buff (Nat.min (length l1) (length l2)) (pre ++ map Val (l1 ++ l2) ++ post) ->
  (forall ys, is_merge lt l1 l2 ys -> Q tt (pre ++ map Val ys ++ post)) ->
  wp (buffered_inplace_merge comp proj f mi l n1 n2 buff) Q (pre ++ map Val (l1 ++ l2) ++ post).
Proof.
  intros l1 l2 pre post f mi l n1 n2 buff Q Hf Hm Hl -> -> HR HQ. unfold buffered_inplace_merge.
  destruct (Nat.leb_spec (length l1) (length l2)).
  - apply half_merge_forward_wp; auto.
    + rewrite Nat.min_l in HR by auto. auto.
    + apply HQ. apply is_merge_merge.
  - apply half_merge_backward_wp; auto; try lia.
    + rewrite Nat.min_r in HR by lia. auto.
    + apply HQ. apply is_merge_backward.
Qed.
End Buf.
