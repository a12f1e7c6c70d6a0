(** Merge sort. *)
From Coq Require Import List Arith Lia Permutation Bool ZArith Zify ZifyNat.
From Verif Require Import Spec.Order Lang.Mem Spec.Sorts Proofs.Wp Proofs.OrderLib Model.Insertion Proofs.Insertion
  Model.Basic Proofs.Basic Model.Heap Model.Rotate Proofs.Rotate Proofs.RotateGcd
  Model.Search Model.Buffer Model.Merge Proofs.Search Proofs.MergeLib Proofs.HalfMerge Proofs.BufMerge Proofs.Merge.
Import ListNotations.
Ltac Zify.zify_post_hook ::= Z.to_euclidean_division_equations.

Section Buf.
Context {A : Type}.

(** A buffer at the end of the memory, from address [n] on. *)
Definition bufok (n : nat) (b : buffer) : Prop := snd b = 0 \/ fst b = n.

Lemma get_temporary_buffer_wp : forall o count mn (m : mem A) (Q : nat -> mem A -> Prop),
  (forall n, n = 0 \/ (mn < n /\ n <= count) -> ((forall p, o p = true) -> mn < count -> n = count) ->
     ((forall p, o p = false) -> n = 0) -> Q n m) ->
  wp (get_temporary_buffer o count mn) Q m.
Proof.
  intros o count mn m Q HQ. unfold get_temporary_buffer.
  apply wp_loop' with
    (I := fun '(k, c) m' => m' = m /\ (c <= count) /\ (k = 0 -> c = count) /\ (k <> 0 -> o [0] = false))
    (mu := fun '(k, c) => c).
  - cj; auto; lia.
  - lia.
  - intros [k c] m' (-> & Hc & H0 & H1). destruct (Nat.ltb_spec mn c) as [L|L].
    + destruct (o [k]) eqn:E; apply wp_ret.
      * apply HQ; auto.
        -- intros Ho _. destruct k; auto. rewrite Ho in H1. now discriminate H1.
        -- intros Ho. now rewrite Ho in E.
      * cj; auto; try lia. intros _. destruct k; auto.
    + apply wp_ret. apply HQ; auto.
      intros Ho Hc'. destruct k; [lia|]. rewrite Ho in H1. now discriminate H1.
Qed.

Lemma return_temporary_buffer_wp : forall b (m : mem A) (Q : unit -> mem A -> Prop),
  bufok (length m) b -> Q tt m -> wp (return_temporary_buffer b) Q (m ++ repeat Raw (snd b)).
Proof.
  intros [base n] m Q HB HQ. unfold bufok in HB. simpl in *. destruct (Nat.eqb_spec n 0) as [->|E].
  - apply wp_ret. now rewrite app_nil_r.
  - apply wp_dealloc; auto. destruct HB; congruence.
Qed.

Lemma temporary_buffer_wp : forall o count (m : mem A) (Q : buffer -> mem A -> Prop),
  (forall b, bufok (length m) b -> ((forall p, o p = true) -> snd b = count) -> ((forall p, o p = false) -> snd b = 0) ->
     snd b <= count -> Q b (m ++ repeat Raw (snd b))) ->
  wp (temporary_buffer o count) Q m.
Proof.
  intros o count m Q HQ. unfold temporary_buffer. apply wp_bind. apply get_temporary_buffer_wp.
  intros n Hn H1 H2. destruct (Nat.eqb_spec n 0) as [->|E].
  - apply wp_ret. specialize (HQ null_buffer). simpl in HQ. rewrite app_nil_r in HQ.
    apply HQ; [left; auto|lia..].
  - apply wp_bind, wp_alloc, wp_ret. apply (HQ (length m, n)); simpl; auto; try lia.
    right; auto.
Qed.

Lemma try_grow_wp : forall o count b (m : mem A) (Q : buffer -> mem A -> Prop),
  bufok (length m) b ->
  (forall b', bufok (length m) b' -> ((forall p, o p = true) -> count <= snd b') -> ((forall p, o p = false) -> b' = b) ->
     Q b' (m ++ repeat Raw (snd b'))) ->
  wp (try_grow o count b) Q (m ++ repeat Raw (snd b)).
Proof.
  intros o count b m Q HB HQ. unfold try_grow. apply wp_bind. apply get_temporary_buffer_wp.
  intros n Hn H1 H2. destruct (Nat.eqb_spec n 0) as [->|E].
  - apply wp_ret. apply HQ; auto. intros Ho. specialize (H1 Ho). lia.
  - apply wp_bind. apply return_temporary_buffer_wp; auto.
    apply wp_bind, wp_alloc, wp_ret. apply (HQ (length m, n)); simpl; auto.
    { right; auto. } { intros Ho. specialize (H1 Ho). lia. } intros Ho. specialize (H2 Ho). lia.
Qed.

Lemma bufok_raws : forall b (m : mem A), bufok (length m) b -> raws (fst b) (snd b) (m ++ repeat Raw (snd b)).
Proof.
  intros [base n] m HB t Ht. simpl in *. unfold bufok in HB. simpl in HB. destruct HB as [E0|E0]; [lia|]. subst base.
  rewrite nth_error_app2 by lia. rewrite nth_error_repeat by lia. auto.
Qed.
End Buf.

(** Present the memory of a postcondition in the given shape. *)
Ltac reshape_post m' :=
  match goal with |- ?Q ?b ?m => replace m with m' by solve_app end.

Section MergeSort.
Context {A T : Type} (comp : T -> T -> bool) (proj : A -> T).
Notation lt := (by_proj comp proj).
Implicit Types (pre post : mem A).

(** A permutation; the stable sorting if the comparison is a strict weak order. *)
Definition stab (xs ys : list A) : Prop :=
  Permutation xs ys /\ (strict_weak_order lt -> ys = ssort lt xs).

Lemma stab_refl_short : forall xs, length xs <= 1 -> stab xs xs.
Proof. intros [|x [|]] H; simpl in H; try lia; split; auto. Qed.

Lemma stab_length : forall xs ys, stab xs ys -> length ys = length xs.
Proof. intros xs ys [H _]. symmetry. now apply Permutation_length. Qed.

Lemma stab_sorted : forall xs ys, stab xs ys -> strict_weak_order lt -> sorted lt ys.
Proof. intros xs ys [_ H] HW. rewrite (H HW). now apply ssort_sorted. Qed.

Lemma stab_merge : forall xs1 xs2 ys1 ys2 ys, stab xs1 ys1 -> stab xs2 ys2 -> is_merge lt ys1 ys2 ys ->
  stab (xs1 ++ xs2) ys.
Proof.
  intros xs1 xs2 ys1 ys2 ys [P1 S1] [P2 S2] [P S]. split.
  - rewrite <- P. now apply Permutation_app.
  - intros HW. rewrite S; auto; rewrite ?(S1 HW), ?(S2 HW); auto using ssort_sorted.
    apply ssort_same_eq; auto. apply same_sym, same_app; auto using ssort_same.
Qed.

Lemma insertion_sort_stab : forall xs pre post f l (Q : unit -> mem A -> Prop),
  f = length pre -> l = f + length xs ->
  (forall ys, stab xs ys -> Q tt (pre ++ map Val ys ++ post)) ->
  wp (insertion_sort comp proj f l) Q (pre ++ map Val xs ++ post).
Proof.
  intros xs pre post f l Q -> -> HQ. eapply wp_mono.
  - apply (insertion_sort_wp comp proj stab).
    + split; auto.
    + intros x. split; auto.
    + intros xs0 s x s1 s2 [P S] -> Hi. split.
      * rewrite <- Permutation_cons_append. apply Permutation_trans with (x :: s1 ++ s2); [now constructor|apply Permutation_middle].
      * intros HW. apply inserts_ssort; auto. symmetry; auto.
    + intros; now apply stab_length.
  - intros [] m (ys & HS & ->). auto.
Qed.

Lemma bubble_sort_stab : forall xs pre post f n (Q : unit -> mem A -> Prop),
  f = length pre -> n = length xs ->
  (forall ys, stab xs ys -> Q tt (pre ++ map Val ys ++ post)) ->
  wp (bubble_sort comp proj f n) Q (pre ++ map Val xs ++ post).
Proof.
  intros xs pre post f l Q -> -> HQ. eapply wp_mono; [apply bubble_sort_wp|].
  intros [] m (ys & -> & P & S). apply HQ. split; auto.
Qed.

Lemma merge_sort_impl_wp : forall cat triv fuel o xs pre post f l n b (Q : buffer -> mem A -> Prop),
  cat <> Forward -> length xs < fuel -> f = length pre -> l = f + length xs -> n = length xs ->
  bufok (f + length xs + length post) b ->
  (forall ys b', stab xs ys -> bufok (f + length xs + length post) b' ->
     Q b' (pre ++ map Val ys ++ post ++ repeat Raw (snd b'))) ->
  wp (merge_sort_impl comp proj cat triv fuel o f l n b) Q (pre ++ map Val xs ++ post ++ repeat Raw (snd b)).
Proof.
  intros cat triv. induction fuel as [|fuel IH]; intros o xs pre post f l n b Q HC HF -> -> -> HB HQ; [lia|].
  cbn [merge_sort_impl]. destruct (Nat.ltb_spec (length xs) 40) as [H40|H40].
  { apply wp_bind. apply insertion_sort_stab; auto. intros ys HS. apply wp_ret. auto. }
  set (k := length xs / 2).
  assert (Hk : k + (length xs - k) = length xs /\ 0 < k /\ 0 < length xs - k) by (subst k; lia).
  clearbody k.
  destruct (firstn_skipn k xs). pose proof (firstn_length k xs) as E1. pose proof (skipn_length k xs) as E2.
  rewrite firstn_skipn in *. rewrite Nat.min_l in E1 by lia.
  assert (Exs : xs = firstn k xs ++ skipn k xs) by (now rewrite firstn_skipn).
  set (x1 := firstn k xs) in *. set (x2 := skipn k xs) in *. clearbody x1 x2.
  assert (En : length xs = length x1 + length x2) by (rewrite Exs, app_length; auto).
  apply wp_bind. reshape (pre ++ map Val x1 ++ (map Val x2 ++ post) ++ repeat Raw (snd b)). { rewrite Exs. solve_app. }
  apply IH; auto; try (lens; fail).
  { replace (length pre + length x1 + length (map Val x2 ++ post)) with (length pre + length xs + length post) by lens. auto. }
  intros y1 b1 S1 HB1. apply wp_bind. pose proof (stab_length _ _ S1) as L1.
  reshape ((pre ++ map Val y1) ++ map Val x2 ++ post ++ repeat Raw (snd b1)).
  apply IH; auto; try (lens; fail).
  { replace (length pre + k + length x2 + length post) with (length pre + length x1 + length (map Val x2 ++ post)) by lens. auto. }
  intros y2 b2 S2 HB2. pose proof (stab_length _ _ S2) as L2.
  destruct y2 as [|z y2]; [simpl in L2; lia|].
  apply wp_bind. reshape (pre ++ map Val (y1 ++ z :: y2) ++ post ++ repeat Raw (snd b2)).
  apply shrink_left_wp; auto. { lia. }
  intros sk y1' Ey1 Hsk Hy1'. assert (L3 : length y1 = length sk + length y1') by (rewrite Ey1, app_length; auto).
  destruct (Nat.eqb_spec (length pre + length sk) (length pre + k)) as [EE|EE].
  { apply wp_ret. destruct y1' as [|]; [|simpl in L3; lia].
    apply HQ. 2:{ replace (length pre + k + length x2 + length post) with (length pre + length xs + length post) in HB2 by lens. auto. }
    rewrite Exs. eapply stab_merge; eauto.
    rewrite app_nil_r in Ey1. subst sk.
    replace y1 with (y1 ++ []) at 1 by apply app_nil_r.
    apply is_merge_skips; auto. apply is_merge_nil_l. }
  apply wp_bind. reshape ((pre ++ map Val (y1 ++ z :: y2) ++ post) ++ repeat Raw (snd b2)).
  apply try_grow_wp.
  { replace (length (pre ++ map Val (y1 ++ z :: y2) ++ post)) with (length pre + k + length x2 + length post) by lens. auto. }
  intros b3 HB3 _ _. pose proof (bufok_raws _ _ HB3) as HR.
  apply wp_bind.
  assert (EM : (pre ++ map Val (y1 ++ z :: y2) ++ post) ++ repeat Raw (snd b3) =
               (pre ++ map Val sk) ++ map Val (y1' ++ z :: y2) ++ post ++ repeat Raw (snd b3)).
  { rewrite Ey1. solve_app. }
  rewrite EM in *.
  apply inplace_merge_buffered_wp; auto; try (lens; fail). { tauto. }
  intros r HM. apply wp_ret.
  reshape_post (pre ++ map Val (sk ++ r) ++ post ++ repeat Raw (snd b3)). apply HQ.
  - rewrite Exs. eapply stab_merge; eauto. rewrite Ey1. now apply is_merge_skips.
  - replace (length pre + length xs + length post) with (length (pre ++ map Val (y1 ++ z :: y2) ++ post)) by lens. auto.
Qed.

Lemma merge_sort_impl_forward_wp : forall triv fuel o xs pre post f n b (Q : buffer -> mem A -> Prop),
  length xs < fuel -> f = length pre -> n = length xs ->
  bufok (f + length xs + length post) b ->
  (forall p, o p = true) \/ ((forall p, o p = false) /\ snd b = 0) ->
  (forall ys b', stab xs ys -> bufok (f + length xs + length post) b' ->
     (forall p, o p = true) \/ ((forall p, o p = false) /\ snd b' = 0) ->
     Q b' (pre ++ map Val ys ++ post ++ repeat Raw (snd b'))) ->
  wp (merge_sort_impl_forward comp proj triv fuel o f n b) Q (pre ++ map Val xs ++ post ++ repeat Raw (snd b)).
Proof.
  intros triv. induction fuel as [|fuel IH]; intros o xs pre post f n b Q HF -> -> HB HO HQ; [lia|].
  cbn [merge_sort_impl_forward]. destruct (Nat.ltb_spec (length xs) 14) as [H14|H14].
  { apply wp_bind. apply bubble_sort_stab; auto. intros ys HS. apply wp_ret. auto. }
  set (k := length xs / 2).
  assert (Hk : k + (length xs - k) = length xs /\ 0 < k /\ k <= length xs - k) by (subst k; lia).
  clearbody k.
  pose proof (firstn_length k xs) as E1. pose proof (skipn_length k xs) as E2.
  rewrite Nat.min_l in E1 by lia.
  assert (Exs : xs = firstn k xs ++ skipn k xs) by (now rewrite firstn_skipn).
  set (x1 := firstn k xs) in *. set (x2 := skipn k xs) in *. clearbody x1 x2.
  assert (En : length xs = length x1 + length x2) by (rewrite Exs, app_length; auto).
  apply wp_bind. reshape (pre ++ map Val x1 ++ (map Val x2 ++ post) ++ repeat Raw (snd b)). { rewrite Exs. solve_app. }
  apply IH; auto; try (lens; fail).
  { replace (length pre + length x1 + length (map Val x2 ++ post)) with (length pre + length xs + length post) by lens. auto. }
  { unfold sub. destruct HO as [HO|[HO HO']]; [left|right]; auto. }
  intros y1 b1 S1 HB1 HO1. apply wp_bind. pose proof (stab_length _ _ S1) as L1.
  assert (HO1' : (forall p, o p = true) \/ ((forall p, o p = false) /\ snd b1 = 0)).
  { unfold sub in HO1. destruct HO as [HO|[HO HO']]; [left|right]; auto. split; auto.
    destruct HO1 as [HO1|[HO1 ?]]; auto. specialize (HO1 []). rewrite HO in HO1. discriminate. }
  reshape ((pre ++ map Val y1) ++ map Val x2 ++ post ++ repeat Raw (snd b1)).
  apply IH; auto; try (lens; fail).
  { replace (length pre + k + length x2 + length post) with (length pre + length x1 + length (map Val x2 ++ post)) by lens. auto. }
  { unfold sub. destruct HO1' as [HO'|[HO' HO'']]; [left|right]; auto. }
  intros y2 b2 S2 HB2 HO2. pose proof (stab_length _ _ S2) as L2.
  assert (HO2' : (forall p, o p = true) \/ ((forall p, o p = false) /\ snd b2 = 0)).
  { unfold sub in HO2. destruct HO1' as [HO'|[HO' HO'']]; [left|right]; auto. split; auto.
    destruct HO2 as [HO2|[HO2 ?]]; auto. specialize (HO2 []). rewrite HO' in HO2. discriminate. }
  clear HO1 HO1' HO2 HO.
  destruct y2 as [|z y2]; [simpl in L2; lia|].
  apply wp_bind. reshape (pre ++ map Val (y1 ++ z :: y2) ++ post ++ repeat Raw (snd b2)).
  apply shrink_left_wp; auto. { lia. }
  intros sk y1' Ey1 Hsk Hy1'. assert (L3 : length y1 = length sk + length y1') by (rewrite Ey1, app_length; auto).
  destruct (Nat.eqb_spec (length pre + length sk) (length pre + k)) as [EE|EE].
  { apply wp_ret. destruct y1' as [|]; [|simpl in L3; lia].
    apply HQ; auto. 2:{ replace (length pre + k + length x2 + length post) with (length pre + length xs + length post) in HB2 by lens. auto. }
    rewrite Exs. eapply stab_merge; eauto.
    rewrite app_nil_r in Ey1. subst sk.
    replace y1 with (y1 ++ []) at 1 by apply app_nil_r.
    apply is_merge_skips; auto. apply is_merge_nil_l. }
  apply wp_bind. reshape ((pre ++ map Val (y1 ++ z :: y2) ++ post) ++ repeat Raw (snd b2)).
  apply try_grow_wp.
  { replace (length (pre ++ map Val (y1 ++ z :: y2) ++ post)) with (length pre + k + length x2 + length post) by lens. auto. }
  intros b3 HB3 HT HFl. pose proof (bufok_raws _ _ HB3) as HR.
  apply wp_bind.
  assert (EM : (pre ++ map Val (y1 ++ z :: y2) ++ post) ++ repeat Raw (snd b3) =
               (pre ++ map Val sk) ++ map Val (y1' ++ z :: y2) ++ post ++ repeat Raw (snd b3)).
  { rewrite Ey1. solve_app. }
  rewrite EM in *.
  assert (HO3 : (forall p, o p = true) /\ length xs - k <= snd b3 \/ ((forall p, o p = false) /\ snd b3 = 0)).
  { unfold sub in HT, HFl. destruct HO2' as [HO|[HO HO']]; [left|right]; auto. split; auto. rewrite HFl; auto. }
  apply inplace_merge_buffered_wp; auto; try (lens; fail).
  intros r HM. apply wp_ret.
  reshape_post (pre ++ map Val (sk ++ r) ++ post ++ repeat Raw (snd b3)). apply HQ.
  - rewrite Exs. eapply stab_merge; eauto. rewrite Ey1. now apply is_merge_skips.
  - replace (length pre + length xs + length post) with (length (pre ++ map Val (y1 ++ z :: y2) ++ post)) by lens. auto.
  - destruct HO3 as [[? _]|?]; auto.
Qed.

(** Allocations that all succeed or all fail. *)
Definition uniform (o : oracle) : Prop := (forall p, o p = true) \/ (forall p, o p = false).

Lemma merge_sort_wp : forall cat triv o xs pre post f l n (Q : unit -> mem A -> Prop),
  (cat = Forward -> uniform o) -> f = length pre -> l = f + length xs -> n = length xs ->
  (forall ys, stab xs ys -> Q tt (pre ++ map Val ys ++ post)) ->
  wp (merge_sort comp proj cat triv o f l n) Q (pre ++ map Val xs ++ post).
Proof.
  intros cat triv o xs pre post f l n Q HO -> -> -> HQ. unfold merge_sort.
  assert (HB0 : bufok (length pre + length xs + length post) null_buffer) by (left; auto).
  assert (HE : pre ++ map Val xs ++ post = pre ++ map Val xs ++ post ++ repeat Raw (snd null_buffer)).
  { simpl. now rewrite app_nil_r. }
  assert (HR : forall ys b', stab xs ys -> bufok (length pre + length xs + length post) b' ->
     wp (return_temporary_buffer b') Q (pre ++ map Val ys ++ post ++ repeat Raw (snd b'))).
  { intros ys b' HS HB. pose proof (stab_length _ _ HS) as HL.
    reshape ((pre ++ map Val ys ++ post) ++ repeat Raw (snd b')).
    apply return_temporary_buffer_wp; auto.
    replace (length (pre ++ map Val ys ++ post)) with (length pre + length xs + length post) by lens. auto. }
  destruct cat.
  - destruct (length xs <? 14).
    { apply bubble_sort_stab; auto. }
    apply wp_bind. rewrite HE. apply merge_sort_impl_forward_wp; auto.
    destruct (HO eq_refl); auto.
  - destruct (length xs <? 40). { apply insertion_sort_stab; auto. }
    apply wp_bind. rewrite HE. apply merge_sort_impl_wp; auto; congruence.
  - destruct (length xs <? 40). { apply insertion_sort_stab; auto. }
    apply wp_bind. rewrite HE. apply merge_sort_impl_wp; auto; congruence.
Qed.

Lemma sorts_stably_stab : forall prog : range_prog A, strict_weak_order comp ->
  (forall pre xs post, wp (prog (length pre) (length pre + length xs))
     (fun _ m' => exists ys, stab xs ys /\ m' = pre ++ map Val ys ++ post) (pre ++ map Val xs ++ post)) ->
  sorts_stably lt prog.
Proof.
  intros prog HC H pre xs post. specialize (H pre xs post).
  apply wp_ok in H as ([] & m & E & ys & [_ HS] & ->). exists ys. split; auto.
  pose proof (swo_by_proj _ _ comp proj HC) as HW. rewrite (HS HW). now apply ssort_stable.
Qed.

Lemma permutes_stab : forall prog : range_prog A,
  (forall pre xs post, wp (prog (length pre) (length pre + length xs))
     (fun _ m' => exists ys, stab xs ys /\ m' = pre ++ map Val ys ++ post) (pre ++ map Val xs ++ post)) ->
  permutes prog.
Proof.
  intros prog H pre xs post. specialize (H pre xs post).
  apply wp_ok in H as ([] & m & E & ys & [HP _] & ->). exists ys. split; auto.
Qed.

Lemma merge_sorter_stab : forall cat triv o pre xs post, (cat = Forward -> uniform o) ->
  wp (merge_sorter comp proj cat triv o (length pre) (length pre + length xs))
     (fun _ m' => exists ys, stab xs ys /\ m' = pre ++ map Val ys ++ post) (pre ++ map Val xs ++ post).
Proof. intros. unfold merge_sorter. apply merge_sort_wp; auto; try lia. eauto. Qed.

(** Merging of two consecutive sorted ranges. *)
Lemma inplace_merge_wp : forall cat triv o l1 l2 pre post f mi l (Q : unit -> mem A -> Prop),
  cat <> Forward -> f = length pre -> mi = f + length l1 -> l = mi + length l2 -> l2 <> [] ->
  (forall ys, is_merge lt l1 l2 ys -> Q tt (pre ++ map Val ys ++ post)) ->
  wp (inplace_merge comp proj cat triv o f mi l) Q (pre ++ map Val (l1 ++ l2) ++ post).
Proof.
  intros cat triv o l1 l2 pre post f mi l Q HC -> -> -> Hne HQ. unfold inplace_merge.
  destruct l2 as [|z l2]; [congruence|]. apply wp_bind. apply shrink_left_wp; auto.
  intros sk l1' El1 Hsk Hy. assert (L : length l1 = length sk + length l1') by (rewrite El1, app_length; auto).
  destruct (Nat.eqb_spec (length pre + length sk) (length pre + length l1)) as [E|E].
  { apply wp_ret. apply HQ. destruct l1'; [|simpl in L; lia]. rewrite app_nil_r in El1. subst sk.
    replace l1 with (l1 ++ []) at 1 by apply app_nil_r. apply is_merge_skips; auto. apply is_merge_nil_l. }
  unfold inplace_merge_n. apply wp_bind. apply temporary_buffer_wp. intros b HB _ _ _.
  pose proof (bufok_raws _ _ HB) as HR. apply wp_bind.
  assert (EM : (pre ++ map Val (l1 ++ z :: l2) ++ post) ++ repeat Raw (snd b) =
               (pre ++ map Val sk) ++ map Val (l1' ++ z :: l2) ++ post ++ repeat Raw (snd b)).
  { rewrite El1. solve_app. }
  rewrite EM in *.
  apply inplace_merge_buffered_wp; auto; try (lens; fail). { tauto. }
  intros r HM. pose proof (is_merge_length _ _ _ _ HM) as HL.
  reshape ((pre ++ map Val (sk ++ r) ++ post) ++ repeat Raw (snd b)).
  apply return_temporary_buffer_wp.
  { replace (length (pre ++ map Val (sk ++ r) ++ post)) with (length (pre ++ map Val (l1 ++ z :: l2) ++ post)) by lens. auto. }
  apply HQ. rewrite El1. now apply is_merge_skips.
Qed.
End MergeSort.
