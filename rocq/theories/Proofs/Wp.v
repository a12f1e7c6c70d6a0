(** Weakest preconditions for the execution model, and list lemmas. *)
From Coq Require Import List Arith Lia Permutation Bool.
From Verif Require Import Lang.Mem.
Import ListNotations.

(** * [upd] *)
Section Upd.
Context {X : Type}.
Implicit Types l : list X.

Lemma upd_length : forall i x l, length (upd i x l) = length l.
Proof. intros i x l; revert i; induction l; destruct i; simpl; auto. Qed.

Lemma nth_upd_eq : forall i x l, i < length l -> nth_error (upd i x l) i = Some x.
Proof.
  intros i x l; revert i; induction l; destruct i; simpl; intros; try lia; auto.
  apply IHl; lia.
Qed.

Lemma nth_upd_ne : forall i j x l, i <> j -> nth_error (upd i x l) j = nth_error l j.
Proof.
  intros i j x l; revert i j; induction l; destruct i, j; simpl; intros; auto; try lia.
Qed.

Lemma nth_upd : forall i j x l,
  nth_error (upd i x l) j =
  if Nat.eqb i j then (if j <? length l then Some x else None) else nth_error l j.
Proof.
  intros. destruct (Nat.eqb_spec i j).
  - subst. destruct (Nat.ltb_spec j (length l)).
    + apply nth_upd_eq; auto.
    + apply nth_error_None. rewrite upd_length. auto.
  - apply nth_upd_ne; auto.
Qed.

Lemma upd_app_l : forall i x l1 l2, i < length l1 -> upd i x (l1 ++ l2) = upd i x l1 ++ l2.
Proof.
  intros i x l1; revert i; induction l1; destruct i; simpl; intros; try lia; auto.
  f_equal. apply IHl1. lia.
Qed.

Lemma upd_app_r : forall i x l1 l2, length l1 <= i ->
  upd i x (l1 ++ l2) = l1 ++ upd (i - length l1) x l2.
Proof.
  intros i x l1; revert i; induction l1; simpl; intros.
  - now rewrite Nat.sub_0_r.
  - destruct i; [lia|]. simpl. f_equal. apply IHl1. lia.
Qed.

Lemma upd_mid : forall x y l1 l2, upd (length l1) x (l1 ++ y :: l2) = l1 ++ x :: l2.
Proof. intros. rewrite upd_app_r by lia. now rewrite Nat.sub_diag. Qed.

Lemma nth_mid : forall x l1 l2, nth_error (l1 ++ x :: l2) (length l1) = Some x.
Proof. intros. rewrite nth_error_app2 by lia. now rewrite Nat.sub_diag. Qed.

Lemma upd_id : forall i x l, nth_error l i = Some x -> upd i x l = l.
Proof.
  intros i x l; revert i; induction l; destruct i; simpl; intros; try discriminate.
  - congruence.
  - f_equal; auto.
Qed.

Lemma upd_upd : forall i x y l, upd i x (upd i y l) = upd i x l.
Proof. intros i x y l; revert i; induction l; destruct i; simpl; auto; intros; now rewrite IHl. Qed.

Lemma upd_comm : forall i j x y l, i <> j -> upd i x (upd j y l) = upd j y (upd i x l).
Proof.
  intros i j x y l; revert i j; induction l; destruct i, j; simpl; intros; auto; try lia.
  f_equal. apply IHl. lia.
Qed.

Lemma nth_lt : forall l i x, nth_error l i = Some x -> i < length l.
Proof. intros. apply nth_error_Some. congruence. Qed.

Lemma nth_ext : forall l1 l2, (forall i, nth_error l1 i = nth_error l2 i) -> l1 = l2.
Proof.
  induction l1; destruct l2; intros H; auto.
  - specialize (H 0); discriminate.
  - specialize (H 0); discriminate.
  - f_equal. specialize (H 0); simpl in H; congruence.
    apply IHl1. intros i. apply (H (S i)).
Qed.

Lemma list_split_nth : forall i x l, nth_error l i = Some x ->
  exists l1 l2, l = l1 ++ x :: l2 /\ length l1 = i.
Proof. intros. apply nth_error_split; auto. Qed.

Lemma nth_firstn_lt : forall l n i, i < n -> nth_error (firstn n l) i = nth_error l i.
Proof. induction l; destruct n, i; simpl; intros; auto; try lia. apply IHl. lia. Qed.

Lemma nth_skipn : forall l n i, nth_error (skipn n l) i = nth_error l (n + i).
Proof.
  induction l; intros n i.
  - rewrite skipn_nil. now rewrite !(proj2 (nth_error_None _ _)) by (simpl; lia).
  - destruct n; auto. simpl skipn. rewrite IHl. reflexivity.
Qed.

Lemma swap_perm : forall l i j x y,
  nth_error l i = Some x -> nth_error l j = Some y ->
  Permutation (upd j x (upd i y l)) l.
Proof.
  intros l i j x y Hi Hj.
  destruct (Nat.eq_dec i j) as [->|Hne].
  { rewrite upd_upd. assert (x = y) by congruence. subst.
    rewrite upd_id by auto. reflexivity. }
  assert (forall l i j x y, i < j -> nth_error l i = Some x -> nth_error l j = Some y ->
     Permutation (upd j x (upd i y l)) l) as Hlt.
  { clear. intros l i j x y Hlt Hi Hj.
    apply list_split_nth in Hi as (l1 & l2 & -> & <-).
    rewrite nth_error_app2 in Hj by lia.
    destruct (j - length l1) as [|k] eqn:E; [lia|]. simpl in Hj.
    apply list_split_nth in Hj as (l3 & l4 & -> & <-).
    rewrite upd_mid. rewrite upd_app_r by lia. rewrite E. simpl.
    rewrite upd_mid. apply Permutation_app_head.
    rewrite <- Permutation_middle. rewrite (perm_swap).
    constructor. apply Permutation_middle. }
  destruct (Nat.lt_trichotomy i j) as [H|[H|H]]; [auto|lia|].
  rewrite upd_comm by lia. apply Hlt; auto.
Qed.
End Upd.

(** * Weakest precondition *)
Section Wp.
Context {A : Type}.

Definition wp {X} (c : M A X) (Q : X -> mem A -> Prop) (m : mem A) : Prop :=
  match c m with
  | Ok x m' => Q x m'
  | _ => False
  end.

Lemma wp_ok : forall X (c : M A X) (Q : X -> mem A -> Prop) m, wp c Q m <-> exists x m', c m = Ok x m' /\ Q x m'.
Proof.
  intros. unfold wp. destruct (c m); split; intros H; try tauto.
  - eauto.
  - destruct H as (? & ? & E & ?). congruence.
  - destruct H as (? & ? & E & ?). congruence.
  - destruct H as (? & ? & E & ?). congruence.
Qed.

Lemma wp_run : forall X (c : M A X) (Q : X -> mem A -> Prop) m x m', c m = Ok x m' -> Q x m' -> wp c Q m.
Proof. intros. unfold wp. now rewrite H. Qed.

Lemma wp_mono : forall X (c : M A X) (Q Q' : X -> mem A -> Prop) m,
  wp c Q m -> (forall x m', Q x m' -> Q' x m') -> wp c Q' m.
Proof. intros. unfold wp in *. destruct (c m); auto. Qed.

Lemma wp_ret : forall X (x : X) (Q : X -> mem A -> Prop) m, Q x m -> wp (ret x) Q m.
Proof. intros. exact H. Qed.

Lemma wp_bind : forall X Y (c : M A X) (k : X -> M A Y) (Q : Y -> mem A -> Prop) m,
  wp c (fun x m' => wp (k x) Q m') m -> wp (bind c k) Q m.
Proof. intros. unfold wp, bind in *. destruct (c m); auto. Qed.

Lemma wp_bind_call : forall X Y (c : M A X) (k : X -> M A Y) (R : X -> mem A -> Prop) (Q : Y -> mem A -> Prop) m,
  wp c R m -> (forall x m', R x m' -> wp (k x) Q m') -> wp (bind c k) Q m.
Proof. intros. apply wp_bind. eapply wp_mono; eauto. Qed.

Lemma wp_get : forall i a (Q : A -> mem A -> Prop) m,
  nth_error m i = Some (Val a) -> Q a m -> wp (get i) Q m.
Proof. intros. unfold wp, get. now rewrite H. Qed.

Lemma wp_take : forall i a (Q : A -> mem A -> Prop) m,
  nth_error m i = Some (Val a) -> Q a (upd i Moved m) -> wp (take i) Q m.
Proof. intros. unfold wp, take. now rewrite H. Qed.

Lemma wp_put : forall i c a (Q : unit -> mem A -> Prop) m,
  nth_error m i = Some c -> c <> Raw -> Q tt (upd i (Val a) m) -> wp (put i a) Q m.
Proof. intros. unfold wp, put. rewrite H. destruct c; auto; congruence. Qed.

Lemma wp_move_to : forall i j a c (Q : unit -> mem A -> Prop) m,
  i <> j ->
  nth_error m i = Some (Val a) -> nth_error m j = Some c -> c <> Raw ->
  Q tt (upd j (Val a) (upd i Moved m)) -> wp (move_to i j) Q m.
Proof.
  intros. unfold move_to. destruct (Nat.eqb_spec i j); [lia|].
  apply wp_bind. eapply wp_take; eauto. eapply wp_put; eauto.
  rewrite nth_upd_ne; eauto.
Qed.

Lemma wp_swap : forall i j a b (Q : unit -> mem A -> Prop) m,
  nth_error m i = Some (Val a) -> nth_error m j = Some (Val b) ->
  Q tt (upd j (Val a) (upd i (Val b) m)) -> wp (swap i j) Q m.
Proof. intros. unfold wp, swap. now rewrite H, H0. Qed.

Lemma wp_construct : forall i a (Q : unit -> mem A -> Prop) m,
  nth_error m i = Some Raw -> Q tt (upd i (Val a) m) -> wp (construct i a) Q m.
Proof. intros. unfold wp, construct. now rewrite H. Qed.

Lemma wp_destroy : forall i c (Q : unit -> mem A -> Prop) m,
  nth_error m i = Some c -> c <> Raw -> Q tt (upd i Raw m) -> wp (destroy i) Q m.
Proof. intros. unfold wp, destroy. rewrite H. destruct c; auto; congruence. Qed.

Lemma wp_alloc : forall n (Q : nat -> mem A -> Prop) m,
  Q (length m) (m ++ repeat Raw n) -> wp (alloc n) Q m.
Proof. intros. exact H. Qed.

Lemma wp_dealloc : forall base n (Q : unit -> mem A -> Prop) m,
  base = length m -> Q tt m -> wp (dealloc base n) Q (m ++ repeat Raw n).
Proof.
  intros base n Q m -> HQ. unfold wp, dealloc.
  rewrite app_length, repeat_length, Nat.eqb_refl.
  rewrite skipn_app, skipn_all, Nat.sub_diag. simpl.
  rewrite firstn_app, firstn_all, Nat.sub_diag. simpl. rewrite app_nil_r.
  replace (forallb _ _) with true; auto.
  symmetry. apply forallb_forall. intros x Hx. apply repeat_spec in Hx. now subst.
Qed.

(** The loop rule: an invariant over loop state and memory, and a measure. *)
Lemma wp_loop : forall S R (body : S -> M A (S + R)) (I : S -> mem A -> Prop)
    (mu : S -> mem A -> nat) (Q : R -> mem A -> Prop) fuel s m,
  I s m -> mu s m < fuel ->
  (forall s m, I s m -> wp (body s) (fun r m' => match r with
      | inl s' => I s' m' /\ mu s' m' < mu s m
      | inr x => Q x m' end) m) ->
  wp (loop fuel body s) Q m.
Proof.
  induction fuel; intros s m HI Hmu Hstep; [lia|].
  simpl. apply wp_bind. eapply wp_mono; [apply (Hstep s m HI)|].
  intros [s'|x] m'; simpl.
  - intros [HI' Hlt]. apply IHfuel; auto; lia.
  - intros HQ. exact HQ.
Qed.

(** Same with a measure on the loop state only. *)
Lemma wp_loop' : forall S R (body : S -> M A (S + R)) (I : S -> mem A -> Prop)
    (mu : S -> nat) (Q : R -> mem A -> Prop) fuel s m,
  I s m -> mu s < fuel ->
  (forall s m, I s m -> wp (body s) (fun r m' => match r with
      | inl s' => I s' m' /\ mu s' < mu s
      | inr x => Q x m' end) m) ->
  wp (loop fuel body s) Q m.
Proof. intros. eapply wp_loop with (mu := fun s _ => mu s); eauto. Qed.
End Wp.

(** * Views of memory by index *)
Section Views.
Context {A : Type}.
Implicit Types m : mem A.

(** [m] and [m'] have the same size and agree outside [f, l). *)
Definition same_out (f l : nat) (m m' : mem A) : Prop :=
  length m' = length m /\
  forall k, k < f \/ l <= k -> nth_error m' k = nth_error m k.

(** [m'] is [m] with the cells of [f, l) permuted. *)
Definition pm (f l : nat) (m m' : mem A) : Prop :=
  same_out f l m m' /\ Permutation m m'.

(** Every cell of [f, l) holds a value. *)
Definition full (f l : nat) (m : mem A) : Prop :=
  l <= length m /\ forall k, f <= k < l -> exists a, nth_error m k = Some (Val a).

Lemma same_out_refl : forall f l m, same_out f l m m.
Proof. split; auto. Qed.

Lemma same_out_trans : forall f l m1 m2 m3,
  same_out f l m1 m2 -> same_out f l m2 m3 -> same_out f l m1 m3.
Proof.
  intros f l m1 m2 m3 [L1 H1] [L2 H2]. split; [congruence|].
  intros. rewrite H2, H1; auto.
Qed.

Lemma same_out_widen : forall f l f' l' m m',
  same_out f l m m' -> f' <= f -> l <= l' -> same_out f' l' m m'.
Proof. intros f l f' l' m m' [L H] ? ?. split; auto. intros. apply H. lia. Qed.

Lemma same_out_upd : forall f l m i c, f <= i < l -> same_out f l m (upd i c m).
Proof.
  intros. split; [apply upd_length|]. intros. apply nth_upd_ne. lia.
Qed.

Lemma pm_refl : forall f l m, pm f l m m.
Proof. split; [apply same_out_refl|reflexivity]. Qed.

Lemma pm_trans : forall f l m1 m2 m3, pm f l m1 m2 -> pm f l m2 m3 -> pm f l m1 m3.
Proof.
  intros f l m1 m2 m3 [? ?] [? ?]. split.
  eapply same_out_trans; eauto. etransitivity; eauto.
Qed.

Lemma pm_widen : forall f l f' l' m m', pm f l m m' -> f' <= f -> l <= l' -> pm f' l' m m'.
Proof. intros f l f' l' m m' [? ?] ? ?. split; auto. eapply same_out_widen; eauto. Qed.

Lemma pm_length : forall f l m m', pm f l m m' -> length m' = length m.
Proof. intros f l m m' [[? ?] ?]; auto. Qed.

Lemma pm_out : forall f l m m' k, pm f l m m' -> k < f \/ l <= k ->
  nth_error m' k = nth_error m k.
Proof. intros f l m m' k [[? ?] ?]; auto. Qed.

Lemma pm_swap : forall f l m i j a b,
  f <= i < l -> f <= j < l ->
  nth_error m i = Some a -> nth_error m j = Some b ->
  pm f l m (upd j a (upd i b m)).
Proof.
  intros. split.
  - eapply same_out_trans; apply same_out_upd; auto.
  - symmetry. apply swap_perm; auto.
Qed.

(** Decomposition of a memory around a range. *)
Lemma mem_decomp : forall f l m, f <= l -> l <= length m ->
  exists pre mid post, m = pre ++ mid ++ post /\ length pre = f /\ length mid = l - f.
Proof.
  intros. exists (firstn f m), (firstn (l - f) (skipn f m)), (skipn (l - f) (skipn f m)).
  rewrite firstn_skipn, firstn_skipn. split; auto.
  rewrite !firstn_length, skipn_length. lia.
Qed.

Lemma same_out_decomp : forall pre mid post m', 
  same_out (length pre) (length pre + length mid) (pre ++ mid ++ post) m' ->
  exists mid', m' = pre ++ mid' ++ post /\ length mid' = length mid.
Proof.
  intros pre mid post m' [L H]. rewrite !app_length in L.
  destruct (mem_decomp (length pre) (length pre + length mid) m') as
    (p & mi & po & -> & Hp & Hm); [lia|lia|].
  exists mi. split; [|lia].
  assert (p = pre) as ->.
  { apply nth_ext. intros i. destruct (Nat.ltb_spec i (length pre)).
    - specialize (H i). rewrite !nth_error_app1 in H by lia. apply H. lia.
    - rewrite !(proj2 (nth_error_None _ _)); auto; lia. }
  do 2 f_equal.
  apply nth_ext. intros i.
  specialize (H (length pre + length mid + i)).
  rewrite !nth_error_app2 in H by lia.
  replace (length pre + length mid + i - length pre - length mi) with i in H by lia.
  replace (length pre + length mid + i - length pre - length mid) with i in H by lia.
  apply H. lia.
Qed.

Lemma map_Val_perm : forall (xs : list A) mid,
  Permutation (map Val xs) mid -> exists ys, mid = map Val ys /\ Permutation xs ys.
Proof.
  intros. apply Permutation_sym in H. apply Permutation_map_inv in H as (ys & -> & H).
  exists ys. split; auto.
Qed.

Lemma pm_decomp : forall pre xs post (m' : mem A),
  pm (length pre) (length pre + length xs) (pre ++ map Val xs ++ post) m' ->
  exists ys, m' = pre ++ map Val ys ++ post /\ Permutation xs ys.
Proof.
  intros pre xs post m' [Hs Hp].
  rewrite <- (map_length Val xs) in Hs.
  apply same_out_decomp in Hs as (mid & -> & HL).
  apply Permutation_app_inv_l, Permutation_app_inv_r in Hp.
  apply map_Val_perm in Hp as (ys & -> & Hp). eauto.
Qed.

Lemma nth_pre_map_post : forall pre (xs : list A) post i,
  i < length xs ->
  nth_error (pre ++ map Val xs ++ post) (length pre + i) = option_map Val (nth_error xs i).
Proof.
  intros. rewrite nth_error_app2 by lia.
  replace (length pre + i - length pre) with i by lia.
  rewrite nth_error_app1 by (now rewrite map_length).
  apply nth_error_map.
Qed.

Lemma full_init : forall pre xs post,
  full (length pre) (length pre + length xs) (pre ++ map (@Val A) xs ++ post).
Proof.
  intros. split.
  - rewrite !app_length, map_length. lia.
  - intros k Hk.
    replace k with (length pre + (k - length pre)) by lia.
    rewrite nth_pre_map_post by lia.
    destruct (nth_error xs (k - length pre)) eqn:E; simpl; eauto.
    apply nth_error_None in E. lia.
Qed.

Lemma full_sub : forall f l f' l' m, full f l m -> f <= f' -> l' <= l -> full f' l' m.
Proof. intros f l f' l' m [L H] ? ?. split; [lia|]. intros. apply H. lia. Qed.

(** Any property of the values of a range is preserved by permuting it. *)
Definition range_all (P : A -> Prop) (f l : nat) (m : mem A) : Prop :=
  forall k a, f <= k < l -> nth_error m k = Some (Val a) -> P a.

Lemma pm_seg : forall f l m m', pm f l m m' -> l <= length m ->
  Permutation (firstn (l - f) (skipn f m)) (firstn (l - f) (skipn f m')).
Proof.
  intros f l m m' H Hl.
  destruct (Nat.le_gt_cases f l) as [Hfl|Hfl].
  2:{ replace (l - f) with 0 by lia. reflexivity. }
  destruct (mem_decomp f l m) as (p & mi & po & -> & Hp & Hm); auto.
  destruct H as [Hs HP].
  subst f. replace l with (length p + length mi) in Hs by lia.
  apply same_out_decomp in Hs as (mi' & -> & L).
  apply Permutation_app_inv_l, Permutation_app_inv_r in HP.
  rewrite !skipn_app, !skipn_all, !Nat.sub_diag. simpl.
  rewrite !firstn_app, <- Hm, L, !firstn_all, Nat.sub_diag. simpl.
  rewrite <- L at 1. rewrite firstn_all. simpl. rewrite !app_nil_r. auto.
Qed.

Lemma nth_seg : forall m f l k, f <= k < l ->
  nth_error (firstn (l - f) (skipn f m)) (k - f) = nth_error m k.
Proof.
  intros.
  rewrite nth_firstn_lt by lia. rewrite nth_skipn. f_equal. lia.
Qed.

Lemma pm_range_all : forall P f l m m', pm f l m m' -> l <= length m ->
  range_all P f l m -> range_all P f l m'.
Proof.
  intros P f l m m' H Hl HP k a Hk Ha.
  pose proof (pm_seg _ _ _ _ H Hl) as HS.
  rewrite <- (nth_seg m' f l k Hk) in Ha.
  apply nth_error_In in Ha.
  apply (Permutation_in _ (Permutation_sym HS)) in Ha.
  apply In_nth_error in Ha as (n & Hn).
  assert (n < l - f).
  { apply nth_lt in Hn. rewrite firstn_length in Hn. lia. }
  replace n with ((n + f) - f) in Hn by lia. rewrite nth_seg in Hn by lia.
  eapply HP; [|eauto]. lia.
Qed.

Lemma pm_full : forall f l m m', pm f l m m' -> full f l m -> full f l m'.
Proof.
  intros f l m m' H [L Hf]. split.
  { rewrite (pm_length _ _ _ _ H). auto. }
  intros k Hk.
  pose proof (pm_seg _ _ _ _ H L) as HS.
  destruct (nth_error m' k) as [c|] eqn:E.
  2:{ apply nth_error_None in E. rewrite (pm_length _ _ _ _ H) in E. lia. }
  rewrite <- (nth_seg m' f l k Hk) in E.
  apply nth_error_In in E.
  apply (Permutation_in _ (Permutation_sym HS)) in E.
  apply In_nth_error in E as (n & Hn).
  assert (n < l - f).
  { apply nth_lt in Hn. rewrite firstn_length in Hn. lia. }
  replace n with ((n + f) - f) in Hn by lia. rewrite nth_seg in Hn by lia.
  destruct (Hf (n + f)) as (a & Ha); [lia|]. exists a. congruence.
Qed.

Lemma pm_full_wide : forall f l f' l' m m', pm f l m m' -> full f' l' m ->
  full f' l' m -> f' <= f -> l <= l' -> full f' l' m'.
Proof. intros. eapply pm_full; eauto. eapply pm_widen; eauto. Qed.
End Views.

(** Everything between [f] and [l] below index order is sorted. *)
Definition sorted_range {A} (lt : A -> A -> bool) (f l : nat) (m : mem A) : Prop :=
  forall i j x y, f <= i -> i < j -> j < l ->
    nth_error m i = Some (Val x) -> nth_error m j = Some (Val y) -> lt y x = false.

(** * Tactics *)
Ltac wstep :=
  match goal with
  | |- wp (bind _ _) _ _ => apply wp_bind
  | |- wp (ret _) _ _ => apply wp_ret
  | |- wp (get _) _ _ => eapply wp_get; [eassumption|]
  | |- wp (alloc _) _ _ => apply wp_alloc
  end.

(** Simplify reads of updated memory. *)
Ltac nupd :=
  repeat first
    [ rewrite upd_length in *
    | rewrite nth_upd_ne by (try lia; congruence)
    | rewrite nth_upd_eq by (rewrite ?upd_length; lia) ].

(** * Segment-style memory *)
Section Segments.
Context {X : Type}.
Lemma nth_at : forall (l1 l2 : list X) x i, i = length l1 -> nth_error (l1 ++ x :: l2) i = Some x.
Proof. intros. subst. apply nth_mid. Qed.
Lemma upd_at : forall (l1 l2 : list X) x y i, i = length l1 -> upd i y (l1 ++ x :: l2) = l1 ++ y :: l2.
Proof. intros. subst. apply upd_mid. Qed.
End Segments.

Section SegWp.
Context {A : Type}.
Implicit Types l : mem A.

Lemma wp_get_at : forall l1 l2 a i (Q : A -> mem A -> Prop), i = length l1 ->
  Q a (l1 ++ Val a :: l2) -> wp (get i) Q (l1 ++ Val a :: l2).
Proof. intros. eapply wp_get; eauto. now apply nth_at. Qed.

Lemma wp_take_at : forall l1 l2 a i (Q : A -> mem A -> Prop), i = length l1 ->
  Q a (l1 ++ Moved :: l2) -> wp (take i) Q (l1 ++ Val a :: l2).
Proof. intros. eapply wp_take. { now apply nth_at. } rewrite upd_at; auto. Qed.

Lemma wp_put_at : forall l1 l2 c a i (Q : unit -> mem A -> Prop), i = length l1 -> c <> Raw ->
  Q tt (l1 ++ Val a :: l2) -> wp (put i a) Q (l1 ++ c :: l2).
Proof. intros. eapply wp_put. { now apply nth_at. } auto. rewrite upd_at; auto. Qed.

Lemma wp_construct_at : forall l1 l2 a i (Q : unit -> mem A -> Prop), i = length l1 ->
  Q tt (l1 ++ Val a :: l2) -> wp (construct i a) Q (l1 ++ Raw :: l2).
Proof. intros. eapply wp_construct. { now apply nth_at. } rewrite upd_at; auto. Qed.

Lemma wp_destroy_at : forall l1 l2 c i (Q : unit -> mem A -> Prop), i = length l1 -> c <> Raw ->
  Q tt (l1 ++ Raw :: l2) -> wp (destroy i) Q (l1 ++ c :: l2).
Proof. intros. eapply wp_destroy. { now apply nth_at. } auto. rewrite upd_at; auto. Qed.

(** Moving right to left and left to right between two positions. *)
Lemma wp_move_to_left : forall l1 l2 l3 c a i j (Q : unit -> mem A -> Prop),
  j = length l1 -> i = length l1 + S (length l2) -> c <> Raw ->
  Q tt (l1 ++ Val a :: l2 ++ Moved :: l3) ->
  wp (move_to i j) Q (l1 ++ c :: l2 ++ Val a :: l3).
Proof.
  intros. assert (nth_error (l1 ++ c :: l2 ++ Val a :: l3) i = Some (Val a)).
  { change (l1 ++ c :: l2 ++ Val a :: l3) with (l1 ++ (c :: l2) ++ Val a :: l3).
    rewrite app_assoc. apply nth_at. rewrite app_length. simpl. lia. }
  eapply wp_move_to; eauto; [lia|apply nth_at; auto|].
  rewrite upd_comm by lia. rewrite upd_at by auto.
  replace (upd i Moved (l1 ++ Val a :: l2 ++ Val a :: l3))
    with (l1 ++ Val a :: l2 ++ Moved :: l3); auto.
  change (l1 ++ Val a :: l2 ++ Val a :: l3) with (l1 ++ (Val a :: l2) ++ Val a :: l3).
  rewrite app_assoc, upd_at. rewrite <- app_assoc. reflexivity. rewrite app_length. simpl. lia.
Qed.

Lemma wp_move_to_right : forall l1 l2 l3 c a i j (Q : unit -> mem A -> Prop),
  i = length l1 -> j = length l1 + S (length l2) -> c <> Raw ->
  Q tt (l1 ++ Moved :: l2 ++ Val a :: l3) ->
  wp (move_to i j) Q (l1 ++ Val a :: l2 ++ c :: l3).
Proof.
  intros. assert (nth_error (l1 ++ Val a :: l2 ++ c :: l3) j = Some c).
  { change (l1 ++ Val a :: l2 ++ c :: l3) with (l1 ++ (Val a :: l2) ++ c :: l3).
    rewrite app_assoc. apply nth_at. rewrite app_length. simpl. lia. }
  eapply wp_move_to; eauto; [lia|apply nth_at; auto|].
  rewrite upd_at by auto.
  replace (upd j (Val a) (l1 ++ Moved :: l2 ++ c :: l3))
    with (l1 ++ Moved :: l2 ++ Val a :: l3); auto.
  change (l1 ++ Moved :: l2 ++ c :: l3) with (l1 ++ (Moved :: l2) ++ c :: l3).
  rewrite app_assoc, upd_at. rewrite <- app_assoc. reflexivity. rewrite app_length. simpl. lia.
Qed.

Lemma wp_swap_at : forall l1 l2 l3 a b i j (Q : unit -> mem A -> Prop),
  i = length l1 -> j = length l1 + S (length l2) ->
  Q tt (l1 ++ Val b :: l2 ++ Val a :: l3) ->
  wp (swap i j) Q (l1 ++ Val a :: l2 ++ Val b :: l3).
Proof.
  intros. assert (nth_error (l1 ++ Val a :: l2 ++ Val b :: l3) j = Some (Val b)).
  { change (l1 ++ Val a :: l2 ++ Val b :: l3) with (l1 ++ (Val a :: l2) ++ Val b :: l3).
    rewrite app_assoc. apply nth_at. rewrite app_length. simpl. lia. }
  eapply wp_swap; eauto; [apply nth_at; auto|].
  rewrite upd_at by auto.
  replace (upd j (Val a) (l1 ++ Val b :: l2 ++ Val b :: l3))
    with (l1 ++ Val b :: l2 ++ Val a :: l3); auto.
  change (l1 ++ Val b :: l2 ++ Val b :: l3) with (l1 ++ (Val b :: l2) ++ Val b :: l3).
  rewrite app_assoc, upd_at. rewrite <- app_assoc. reflexivity. rewrite app_length. simpl. lia.
Qed.
End SegWp.

Create HintDb len discriminated.
#[export] Hint Rewrite app_length map_length firstn_length skipn_length repeat_length @upd_length rev_length : len.
Ltac lens := simpl length in *; autorewrite with len in *; simpl length in *; autorewrite with len in *; try lia.

Lemma wp_eq_mem : forall A X (c : M A X) (Q : X -> mem A -> Prop) m m',
  m = m' -> wp c Q m' -> wp c Q m.
Proof. intros. now subst. Qed.

Ltac solve_app :=
  repeat (rewrite ?map_app, <- ?app_assoc; simpl app; simpl map; rewrite ?app_nil_r); reflexivity.
(** Present the current memory in the given shape. *)
Ltac reshape m' := apply (wp_eq_mem _ _ _ _ _ m'); [try solve_app|].

Lemma nth_upd_eq' : forall X i j x (l : list X), i = j -> j < length l -> nth_error (upd i x l) j = Some x.
Proof. intros. subst. now apply nth_upd_eq. Qed.

(** Case analysis on reads of updated memory in the hypotheses. *)
Ltac upd_cases :=
  repeat match goal with
  | H : nth_error (upd ?i _ _) ?j = _ |- _ =>
      let E := fresh "E" in
      destruct (Nat.eq_dec i j) as [E|E];
      [ rewrite nth_upd_eq' in H by (rewrite ?upd_length; solve [exact E | lia])
      | rewrite nth_upd_ne in H by exact E ];
      try lia
  | H : Some (Val ?a) = Some (Val ?b) |- _ =>
      let E := fresh "E" in
      assert (a = b) as E by congruence; clear H; subst a
  end.


(** * Holes
    A moved-from cell whose value [t] is held in a local variable: the memory is
    [upd s Moved V] for the memory [V] in which the value is still there. *)
Section Holes.
Context {A : Type}.
Implicit Types V : mem A.

Lemma wp_take_hole : forall s t V (Q : A -> mem A -> Prop), nth_error V s = Some (Val t) ->
  Q t (upd s Moved V) -> wp (take s) Q V.
Proof. intros. eapply wp_take; eauto. Qed.

Lemma wp_put_hole : forall s t V (Q : unit -> mem A -> Prop), nth_error V s = Some (Val t) ->
  Q tt V -> wp (put s t) Q (upd s Moved V).
Proof.
  intros. eapply wp_put.
  - apply nth_upd_eq. eapply nth_lt; eauto.
  - discriminate.
  - rewrite upd_upd, upd_id; auto.
Qed.

Lemma wp_get_hole : forall s k y V (Q : A -> mem A -> Prop), s <> k -> nth_error V k = Some (Val y) ->
  Q y (upd s Moved V) -> wp (get k) Q (upd s Moved V).
Proof. intros. eapply wp_get; eauto. now rewrite nth_upd_ne. Qed.

Lemma wp_move_hole : forall s k t y V (Q : unit -> mem A -> Prop), s <> k ->
  nth_error V s = Some (Val t) -> nth_error V k = Some (Val y) ->
  Q tt (upd k Moved (upd s (Val y) (upd k (Val t) V))) -> wp (move_to k s) Q (upd s Moved V).
Proof.
  intros s k t y V Q Hne Hs Hk HQ.
  eapply wp_move_to with (a := y) (c := Moved); auto.
  - rewrite nth_upd_ne; auto.
  - apply nth_upd_eq. eapply nth_lt; eauto.
  - discriminate.
  - replace (upd s (Val y) (upd k Moved (upd s Moved V)))
      with (upd k Moved (upd s (Val y) (upd k (Val t) V))); auto.
    rewrite (upd_comm s k (Val y) (Val t)), upd_upd by auto.
    rewrite (upd_comm k s Moved Moved) by auto. rewrite upd_upd.
    rewrite (upd_comm s k) by auto. reflexivity.
Qed.
End Holes.

(** Discharge the easy leading conjuncts. *)
Ltac sp := repeat match goal with |- _ /\ _ => split; [solve [auto using pm_refl | lia | eauto]|] end.
Ltac cj := repeat match goal with |- _ /\ _ => split end.

(** A loop rule whose measure is a ghost index. *)
Lemma wp_loop_k : forall A S R (body : S -> M A (S + R)) (I : nat -> S -> mem A -> Prop)
    (Q : R -> mem A -> Prop) fuel k s m,
  I k s m -> k < fuel ->
  (forall k s m, I k s m -> wp (body s) (fun r m' => match r with
      | inl s' => exists k', k' < k /\ I k' s' m'
      | inr x => Q x m' end) m) ->
  wp (loop fuel body s) Q m.
Proof.
  induction fuel; intros k s m HI Hmu Hstep; [lia|].
  simpl. apply wp_bind. eapply wp_mono; [apply (Hstep k s m HI)|].
  intros [s'|x] m'; simpl.
  - intros (k' & Hlt & HI'). eapply IHfuel; eauto; lia.
  - intros HQ. exact HQ.
Qed.
