(** In-place merges. *)
From Coq Require Import List Arith Lia Permutation Bool ZArith Zify ZifyNat.
From Verif Require Import Spec.Order Lang.Mem Proofs.Wp Proofs.OrderLib Model.Heap Model.Rotate Proofs.Rotate Proofs.RotateGcd
  Model.Search Model.Buffer Model.Merge Proofs.Search Proofs.MergeLib Proofs.HalfMerge Proofs.BufMerge.
Import ListNotations.
Ltac Zify.zify_post_hook ::= Z.to_euclidean_division_equations.

Section Merge.
Context {A T : Type} (comp : T -> T -> bool) (proj : A -> T).
Notation lt := (by_proj comp proj).
Implicit Types (pre post : mem A).

(** Result of the search of symmerge, on the contents of the memory. *)
Definition sym_P (m : mem A) (arr p i : nat) : bool :=
  match nth_error m (arr + (p - i)), nth_error m (arr + i) with
  | Some (Val x), Some (Val y) => negb (lt x y)
  | _, _ => false
  end.

Lemma symmerge_bsearch_wp : forall arr l r p m (Q : nat -> mem A -> Prop), l <= r ->
  (forall i, l <= i < r -> exists x y, nth_error m (arr + (p - i)) = Some (Val x) /\ nth_error m (arr + i) = Some (Val y)) ->
  (forall s, l <= s <= r ->
     ((forall i j, l <= i -> i < j -> j < r -> sym_P m arr p j = true -> sym_P m arr p i = true) ->
       (forall i, l <= i < s -> sym_P m arr p i = true) /\ (forall i, s <= i < r -> sym_P m arr p i = false)) ->
     Q s m) ->
  wp (symmerge_bsearch comp proj arr l r p) Q m.
Proof.
  intros arr l r p m Q Hlr Hv HQ. unfold symmerge_bsearch.
  apply wp_loop' with
    (I := fun '(l', r') m' => m' = m /\ l <= l' /\ l' <= r' /\ r' <= r /\
       ((forall i j, l <= i -> i < j -> j < r -> sym_P m arr p j = true -> sym_P m arr p i = true) ->
         (forall i, l <= i < l' -> sym_P m arr p i = true) /\ (forall i, r' <= i < r -> sym_P m arr p i = false)))
    (mu := fun '(l', r') => r' - l').
  - cj; auto. intros _. split; intros; lia.
  - lia.
  - intros [l' r'] m' (-> & H1 & H2 & H3 & HP). destruct (Nat.ltb_spec l' r').
    + destruct (Hv (l' + (r' - l') / 2)) as (x & y & Hx & Hy); [lia|].
      apply wp_bind. eapply wp_get; eauto. apply wp_bind. eapply wp_get; eauto.
      assert (sym_P m arr p (l' + (r' - l') / 2) = negb (lt x y)) as EP by (unfold sym_P; rewrite Hx, Hy; auto).
      change (comp (proj x) (proj y)) with (lt x y). rewrite <- EP.
      destruct (sym_P m arr p (l' + (r' - l') / 2)) eqn:E.
      * apply wp_ret. split; [|lia]. cj; auto; try lia.
        intros HM. destruct (HP HM) as [F1 F2]. split; auto.
        intros i Hi. destruct (Nat.eq_dec i (l' + (r' - l') / 2)) as [->|]; auto.
        apply (HM i (l' + (r' - l') / 2)); auto; lia.
      * apply wp_ret. split; [|lia]. cj; auto; try lia.
        intros HM. destruct (HP HM) as [F1 F2]. split; auto.
        intros i Hi. destruct (Nat.eq_dec i (l' + (r' - l') / 2)) as [->|]; auto.
        destruct (sym_P m arr p i) eqn:E2; auto.
        rewrite (HM (l' + (r' - l') / 2) i) in E; auto; lia.
    + apply wp_ret. apply HQ; [lia|]. intros HM. destruct (HP HM) as [F1 F2]. split; auto.
      intros i Hi. apply F2. lia.
Qed.

Lemma symmerge_wp : forall triv fuel l1 l2 pre post arr first middle last len1 len2 buff bs (Q : unit -> mem A -> Prop),
  length l1 + length l2 < fuel ->
  arr + first = length pre -> middle = first + length l1 -> last = middle + length l2 ->
  len1 = length l1 -> len2 = length l2 ->
  raws buff bs (pre ++ map Val (l1 ++ l2) ++ post) ->
  (forall ys, is_merge lt l1 l2 ys -> Q tt (pre ++ map Val ys ++ post)) ->
  wp (symmerge comp proj triv fuel arr first middle last len1 len2 buff bs) Q (pre ++ map Val (l1 ++ l2) ++ post).
Proof.
  induction fuel as [|fuel IH]; intros l1 l2 pre post arr first middle last len1 len2 buff bs Q
    HF Hp -> -> -> -> HR HQ; [lia|].
  cbn [symmerge].
  destruct (Nat.ltb_spec 0 (length l1)) as [G1|G1]; simpl andb; cbv iota.
  2:{ apply wp_ret. apply HQ. destruct l1; [|simpl in *; lia]. apply is_merge_nil_l. }
  destruct (Nat.ltb_spec 0 (length l2)) as [G2|G2]; cbv iota.
  2:{ apply wp_ret. apply HQ. destruct l2; [|simpl in *; lia]. rewrite app_nil_r. apply is_merge_nil_r. }
  destruct ((length l1 <=? bs) || (length l2 <=? bs)) eqn:EB.
  { apply buffered_inplace_merge_wp; auto; try lia.
    eapply raws_le; eauto. apply orb_true_iff in EB as [EB|EB]; apply Nat.leb_le in EB; lia. }
  clear EB.
  set (m0 := pre ++ map Val (l1 ++ l2) ++ post) in *.
  set (middle := first + length l1). set (last := middle + length l2).
  set (mm := first + (last - first) / 2). set (n := mm + middle).
  assert (middle = first + length l1) as Emi by reflexivity.
  assert (last = middle + length l2) as Ela by reflexivity.
  assert (n = mm + middle) as En by reflexivity.
  assert (first < mm < last /\ 2 * mm <= first + last <= 2 * mm + 1) as Hmm by (clear -G1 G2; subst mm last middle; lia).
  clearbody n mm last middle.
  (* reading the memory *)
  assert (forall i, first <= i < middle -> exists x, nth_error l1 (i - first) = Some x /\ nth_error m0 (arr + i) = Some (Val x)) as R1.
  { intros i Hi. destruct (nth_some _ l1 (i - first)) as (x & Hx); [lia|]. exists x. split; auto.
    unfold m0. replace (arr + i) with (length pre + (i - first)) by lia.
    rewrite nth_pre_map_post by (rewrite app_length; lia). rewrite nth_error_app1 by lia. now rewrite Hx. }
  assert (forall i, middle <= i < last -> exists x, nth_error l2 (i - middle) = Some x /\ nth_error m0 (arr + i) = Some (Val x)) as R2.
  { intros i Hi. destruct (nth_some _ l2 (i - middle)) as (x & Hx); [lia|]. exists x. split; auto.
    unfold m0. replace (arr + i) with (length pre + (i - first)) by lia.
    rewrite nth_pre_map_post by (rewrite app_length; lia). rewrite nth_error_app2 by lia.
    replace (i - first - length l1) with (i - middle) by lia. now rewrite Hx. }
  (* the search *)
  assert (exists lo hi, lo <= hi /\ first <= lo /\ hi <= middle /\ hi <= mm /\ n - last <= lo /\
     (lo = first \/ lo = n - last) /\ (hi = middle \/ hi = mm) /\
     (if mm <? middle then symmerge_bsearch comp proj arr (n - last) mm (n - 1) else symmerge_bsearch comp proj arr first middle (n - 1))
     = symmerge_bsearch comp proj arr lo hi (n - 1)) as (lo & hi & L1 & L2 & L3 & L4 & L5 & L6 & L7 & ->).
  { destruct (Nat.ltb_spec mm middle).
    - exists (n - last), mm. cj; auto; lia.
    - exists first, middle. cj; auto; lia. }
  apply wp_bind. apply symmerge_bsearch_wp; auto.
  { intros i Hi. destruct (R2 (n - 1 - i)) as (x & _ & Hx); [lia|]. destruct (R1 i) as (y & _ & Hy); [lia|]. eauto. }
  intros s Hs HB.
  assert (s < middle -> middle < n - s -> s < hi) as F3 by lia.
  assert (first < s -> n - s < last -> lo < s) as F4 by lia.
  assert (middle <= n - s <= last) as He by lia.
  assert (first <= s <= middle /\ s <= mm) as Hs2 by lia.
  clear L6 L7. assert (n <= last + lo) as L5' by lia. clear L5.
  assert (s + (n - s) = n) as Ese by lia.
  set (e := n - s) in *. clearbody e.
  set (a := firstn (s - first) l1). set (b := skipn (s - first) l1).
  set (c := firstn (e - middle) l2). set (d := skipn (e - middle) l2).
  assert (length a = s - first) as La by (unfold a; rewrite firstn_length; lia).
  assert (length b = middle - s) as Lb by (unfold b; rewrite skipn_length; lia).
  assert (length c = e - middle) as Lc by (unfold c; rewrite firstn_length; lia).
  assert (length d = last - e) as Ld by (unfold d; rewrite skipn_length; lia).
  assert (l1 = a ++ b) as E1 by (symmetry; apply firstn_skipn).
  assert (l2 = c ++ d) as E2 by (symmetry; apply firstn_skipn).
  assert (strict_weak_order lt -> sorted lt (a ++ b) -> sorted lt (c ++ d) ->
     (forall x y, In x b -> In y c -> lt y x = true) /\ (forall x y, In x a -> In y d -> le lt x y)) as Hsep.
  { intros HW S1 S2. rewrite <- E1 in S1. rewrite <- E2 in S2.
    destruct HB as [F1 F2].
    { clear F3 F4 La Lb Lc Ld Ese He HF Hp Hmm. intros i j Hi Hij Hj. unfold sym_P.
      destruct (R1 i) as (x & Hx & ->); [lia|]. destruct (R1 j) as (y & Hy & ->); [lia|].
      destruct (R2 (n - 1 - i)) as (x' & Hx' & ->); [lia|]. destruct (R2 (n - 1 - j)) as (y' & Hy' & ->); [lia|].
      intros HN. apply negb_true_iff in HN. apply negb_true_iff.
      change (le lt x x'). apply le_trans with y; auto. { red. eapply S1; [|eauto|eauto]. lia. }
      apply le_trans with y'; auto. { red. eapply S2; [|eauto|eauto]. lia. } }
    split.
    - intros x y Hx Hy. assert (s < middle) as Hsm. { destruct b; [destruct Hx|simpl in Lb; lia]. }
      assert (middle < e) as Hsc. { destruct c; [destruct Hy|simpl in Lc; lia]. }
      assert (sym_P m0 arr (n - 1) s = false) as HPs by (apply F2; lia).
      unfold sym_P in HPs. destruct (R1 s) as (u & Hu & Hu'); [lia|]. rewrite Hu' in HPs.
      destruct (R2 (n - 1 - s)) as (v & Hv & Hv'); [lia|]. rewrite Hv' in HPs. apply negb_false_iff in HPs.
      apply In_nth_error in Hx as (i & Hi). apply In_nth_error in Hy as (j & Hj).
      pose proof (nth_lt _ _ _ Hj) as Hjl. unfold b in Hi. rewrite nth_skipn in Hi. unfold c in Hj. rewrite nth_firstn_lt in Hj by lia.
      apply le_lt_trans with v; auto.
      + destruct (Nat.eq_dec j (n - 1 - s - middle)) as [->|].
        * replace v with y by congruence. apply le_refl; auto.
        * red. eapply S2; [|eauto|eauto]. lia.
      + apply lt_le_trans with u; auto. destruct i as [|i].
        * replace x with u; [apply le_refl; auto|]. rewrite Nat.add_0_r in Hi. congruence.
        * red. eapply S1; [|eauto|eauto]. lia.
    - intros x y Hx Hy. assert (first < s) as Hsf. { destruct a; [destruct Hx|simpl in La; lia]. }
      assert (e < last) as Hsd. { destruct d; [destruct Hy|simpl in Ld; lia]. }
      assert (sym_P m0 arr (n - 1) (s - 1) = true) as HPs by (apply F1; lia).
      unfold sym_P in HPs. destruct (R1 (s - 1)) as (u & Hu & Hu'); [lia|]. rewrite Hu' in HPs.
      destruct (R2 (n - 1 - (s - 1))) as (v & Hv & Hv'); [lia|]. rewrite Hv' in HPs. apply negb_true_iff in HPs.
      apply In_nth_error in Hx as (i & Hi). apply In_nth_error in Hy as (j & Hj).
      pose proof (nth_lt _ _ _ Hi) as Hil. unfold d in Hj. rewrite nth_skipn in Hj. unfold a in Hi. rewrite nth_firstn_lt in Hi by lia.
      apply le_trans with u; auto; [|apply le_trans with v; auto].
      + destruct (Nat.eq_dec i (s - 1 - first)) as [->|].
        * replace x with u by congruence. apply le_refl; auto.
        * red. eapply S1; [|eauto|eauto]. lia.
      + destruct j as [|j].
        * replace y with v; [apply le_refl; auto|].
          replace (e - middle + 0) with (n - 1 - (s - 1) - middle) in Hj by lia. congruence.
        * red. eapply S2; [|eauto|eauto]. lia. }
  clear F3 F4 L1 L2 L3 L4 L5'.
  clearbody a b c d. subst l1 l2. unfold m0 in HR |- *. clear R1 R2 HB m0.
  rewrite !app_length in *.
  apply wp_bind. reshape ((pre ++ map Val a) ++ map Val (b ++ c) ++ (map Val d ++ post)).
  apply rotate_wp; try (lens; fail).
  apply wp_bind. reshape (pre ++ map Val (a ++ c) ++ (map Val (b ++ d) ++ post)).
  assert (forall r, length r = length a + length c ->
     raws buff bs (pre ++ map Val r ++ map Val (b ++ d) ++ post)) as HR'.
  { intros r Hr. replace (pre ++ map Val r ++ map Val (b ++ d) ++ post) with
      (pre ++ map Val (r ++ b ++ d) ++ post) by solve_app.
    eapply raws_replace; [|exact HR]. rewrite !app_length. lia. }
  apply IH; auto; try lia. { apply HR'. rewrite app_length. lia. }
  intros r1 HM1. pose proof (is_merge_length _ _ _ _ HM1) as Lr1.
  reshape ((pre ++ map Val r1) ++ map Val (b ++ d) ++ post).
  apply IH; auto; try (lens; fail).
  { rewrite <- app_assoc. apply HR'. lia. }
  intros r2 HM2. replace ((pre ++ map Val r1) ++ map Val r2 ++ post) with (pre ++ map Val (r1 ++ r2) ++ post) by solve_app.
  apply HQ. apply is_merge_split; auto.
Qed.

(** ** Shrinking the left part *)
Lemma is_merge_skips : forall sk l1 y l2 r, (forall z, In z sk -> lt y z = false) ->
  is_merge lt l1 (y :: l2) r -> is_merge lt (sk ++ l1) (y :: l2) (sk ++ r).
Proof.
  induction sk as [|z sk IH]; intros l1 y l2 r Hs HM; simpl; auto.
  eapply is_merge_skip; eauto. { apply Hs. simpl; auto. }
  apply IH; auto. intros; apply Hs; simpl; auto.
Qed.

Lemma shrink_left_wp : forall l1 y l2 pre post f mi (Q : nat -> mem A -> Prop),
  f = length pre -> mi = f + length l1 ->
  (forall sk l1', l1 = sk ++ l1' -> (forall z, In z sk -> lt y z = false) ->
     (forall x t, l1' = x :: t -> lt y x = true) ->
     Q (f + length sk) (pre ++ map Val (l1 ++ y :: l2) ++ post)) ->
  wp (shrink_left comp proj f mi) Q (pre ++ map Val (l1 ++ y :: l2) ++ post).
Proof.
  intros l1 y l2 pre post f mi Q -> -> HQ. unfold shrink_left.
  apply wp_loop' with
    (I := fun f m => m = pre ++ map Val (l1 ++ y :: l2) ++ post /\ exists sk l1', f = length pre + length sk /\
       l1 = sk ++ l1' /\ (forall z, In z sk -> lt y z = false))
    (mu := fun f => length pre + length l1 - f).
  - split; auto. exists [], l1. simpl. cj; auto. tauto.
  - lia.
  - intros f m (-> & sk & l1' & -> & E & Hs). destruct (Nat.eqb_spec (length pre + length sk) (length pre + length l1)) as [E1|E1].
    + apply wp_ret. apply (HQ sk l1'); auto. intros x t ->. rewrite E, app_length in E1. simpl in E1. lia.
    + destruct l1' as [|x t]; [rewrite app_nil_r in E; subst; lia|].
      apply wp_bind. eapply wp_get_list. { rewrite nth_error_app2 by lia. rewrite Nat.sub_diag. reflexivity. }
      apply wp_bind. eapply wp_get_list. { rewrite E, <- app_assoc. rewrite nth_error_app2 by lia. rewrite Nat.sub_diag. reflexivity. }
      change (comp (proj y) (proj x)) with (lt y x).
      destruct (lt y x) eqn:EL; apply wp_ret.
      * apply (HQ sk (x :: t)); auto. intros x' t' [= <- <-]. auto.
      * assert (length l1 = length sk + S (length t)) by (rewrite E, app_length; reflexivity).
        split; [|lia]. split; auto. exists (sk ++ [x]), t. cj.
        -- rewrite app_length. simpl. lia.
        -- rewrite <- app_assoc. auto.
        -- intros z Hz. apply in_app_iff in Hz as [|[<-|[]]]; auto.
Qed.

Lemma recmerge_shrink_wp : forall l1 y l2 pre post f mi n (Q : option (nat * nat) -> mem A -> Prop),
  f = length pre -> mi = f + length l1 -> n = length l1 ->
  ((forall z, In z l1 -> lt y z = false) -> Q None (pre ++ map Val (l1 ++ y :: l2) ++ post)) ->
  (forall sk x t, l1 = sk ++ x :: t -> (forall z, In z sk -> lt y z = false) -> lt y x = true ->
     Q (Some (f + length sk, S (length t))) (pre ++ map Val (l1 ++ y :: l2) ++ post)) ->
  wp (recmerge_shrink comp proj f mi n) Q (pre ++ map Val (l1 ++ y :: l2) ++ post).
Proof.
  intros l1 y l2 pre post f mi n Q -> -> -> HN HQ. unfold recmerge_shrink.
  apply wp_loop' with
    (I := fun '(f, n) m => m = pre ++ map Val (l1 ++ y :: l2) ++ post /\ exists sk l1', f = length pre + length sk /\
       n = length l1' /\ l1 = sk ++ l1' /\ (forall z, In z sk -> lt y z = false))
    (mu := fun '(f, n) => n).
  - split; auto. exists [], l1. simpl. cj; auto. tauto.
  - lia.
  - intros [f n] m (-> & sk & l1' & -> & -> & E & Hs). destruct (Nat.eqb_spec (length l1') 0) as [E1|E1].
    + apply wp_ret. destruct l1'; [|simpl in E1; lia]. rewrite app_nil_r in E. subst. auto.
    + destruct l1' as [|x t]; [simpl in E1; lia|].
      apply wp_bind. eapply wp_get_list. { rewrite nth_error_app2 by lia. rewrite Nat.sub_diag. reflexivity. }
      apply wp_bind. eapply wp_get_list. { rewrite E, <- app_assoc. rewrite nth_error_app2 by lia. rewrite Nat.sub_diag. reflexivity. }
      change (comp (proj y) (proj x)) with (lt y x).
      destruct (lt y x) eqn:EL; apply wp_ret.
      * apply (HQ sk x t); auto.
      * split; [|simpl; lia]. split; auto. exists (sk ++ [x]), t. cj.
        -- rewrite app_length. simpl. lia.
        -- simpl. lia.
        -- rewrite <- app_assoc. auto.
        -- intros z Hz. apply in_app_iff in Hz as [|[<-|[]]]; auto.
Qed.

(** ** Bidirectional iterators *)
Lemma recmerge_bidirectional_wp : forall triv fuel l1 l2 pre post first middle last len1 len2 buff bs (Q : unit -> mem A -> Prop),
  length l1 + length l2 < fuel ->
  first = length pre -> middle = first + length l1 -> last = middle + length l2 ->
  len1 = length l1 -> len2 = length l2 ->
  raws buff bs (pre ++ map Val (l1 ++ l2) ++ post) ->
  (forall ys, is_merge lt l1 l2 ys -> Q tt (pre ++ map Val ys ++ post)) ->
  wp (recmerge_bidirectional comp proj triv fuel first middle last len1 len2 buff bs) Q (pre ++ map Val (l1 ++ l2) ++ post).
Proof.
  induction fuel as [|fuel IH]; intros l1 l2 pre post first middle last len1 len2 buff bs Q
    HF -> -> -> -> -> HR HQ; [lia|].
  cbn [recmerge_bidirectional].
  destruct (Nat.eqb_spec (length l2) 0) as [G2|G2].
  { apply wp_ret. apply HQ. destruct l2; [|simpl in *; lia]. rewrite app_nil_r. apply is_merge_nil_r. }
  destruct ((length l1 <=? bs) || (length l2 <=? bs)) eqn:EB.
  { apply buffered_inplace_merge_wp; auto; try lia.
    eapply raws_le; eauto. apply orb_true_iff in EB as [EB|EB]; apply Nat.leb_le in EB; lia. }
  clear EB. destruct l2 as [|y l2']; [simpl in G2; lia|].
  apply wp_bind. apply recmerge_shrink_wp; auto.
  { intros HN. apply wp_ret. apply HQ. rewrite <- (app_nil_r l1) at 1. apply is_merge_skips; auto. apply is_merge_nil_l. }
  intros sk x t E Hsk Hxy. subst l1.
  set (l1' := x :: t) in *. set (l2 := y :: l2') in *.
  assert (length (sk ++ l1') = length sk + length l1') as Lsk by apply app_length.
  set (pre' := pre ++ map Val sk).
  assert (length pre' = length pre + length sk) as Lpre'. { unfold pre'. lens. }
  reshape (pre' ++ map Val (l1' ++ l2) ++ post). { unfold pre'. solve_app. }
  replace (pre ++ map Val ((sk ++ l1') ++ l2) ++ post) with (pre' ++ map Val (l1' ++ l2) ++ post) in HR.
  2:{ unfold pre'. solve_app. }
  assert (forall ys, is_merge lt l1' l2 ys -> Q tt (pre' ++ map Val ys ++ post)) as HQ'.
  { intros ys HM. replace (pre' ++ map Val ys ++ post) with (pre ++ map Val (sk ++ ys) ++ post).
    - apply HQ. apply is_merge_skips; auto.
    - unfold pre'. solve_app. }
  clear HQ. rename HQ' into HQ.
  assert (1 <= length l1') as G1 by (simpl; lia).
  replace (length pre + length (sk ++ l1')) with (length pre' + length l1') by lia.
  rewrite <- Lpre'. change (S (length t)) with (length l1').
  assert (length l1' + length l2 < S fuel) as HF' by lia. clear HF Lsk Lpre'.
  clearbody pre'. clear pre sk Hsk. rename pre' into pre, l1' into l1.
  (* the recursive calls, once the split is known *)
  assert (forall a b c d, l1 = a ++ b -> l2 = c ++ d -> 1 <= length a + length c -> 1 <= length b + length d ->
    (strict_weak_order lt -> sorted lt (a ++ b) -> sorted lt (c ++ d) ->
     (forall x y, In x b -> In y c -> lt y x = true) /\ (forall x y, In x a -> In y d -> le lt x y)) ->
    wp (let len12 := length l1 - length a in
        let len22 := length l2 - length c in
        let* middle := rotate Bidirectional triv (length pre + length a) (length pre + length l1) (length pre + length l1 + length c) in
        if length a + length c <? len12 + len22 then
          recmerge_bidirectional comp proj triv fuel (length pre) (length pre + length a) middle (length a) (length c) buff bs ;;
          recmerge_bidirectional comp proj triv fuel middle (length pre + length l1 + length c) (length pre + length l1 + length l2) len12 len22 buff bs
        else
          recmerge_bidirectional comp proj triv fuel middle (length pre + length l1 + length c) (length pre + length l1 + length l2) len12 len22 buff bs ;;
          recmerge_bidirectional comp proj triv fuel (length pre) (length pre + length a) middle (length a) (length c) buff bs)
       Q (pre ++ map Val (l1 ++ l2) ++ post)) as Hrest.
  { clearbody l1 l2. intros a b c d -> -> Hac Hbd Hsep. cbv zeta. rewrite !app_length in *.
    replace (length a + length b - length a) with (length b) by lia.
    replace (length c + length d - length c) with (length d) by lia.
    apply wp_bind. reshape ((pre ++ map Val a) ++ map Val (b ++ c) ++ (map Val d ++ post)).
    apply rotate_wp; try (lens; fail).
    assert (forall r r', length r = length a + length c -> length r' = length b + length d ->
       raws buff bs (pre ++ map Val (r ++ r') ++ post)) as HR'.
    { intros r r' Hr Hr'. eapply raws_replace; [|exact HR]. rewrite !app_length. lia. }
    replace (length (pre ++ map Val a) + length c) with (length pre + length a + length c) by lens.
    destruct (length a + length c <? length b + length d).
    - apply wp_bind. reshape (pre ++ map Val (a ++ c) ++ (map Val (b ++ d) ++ post)).
      apply IH; auto; try lia.
      { replace (pre ++ map Val (a ++ c) ++ map Val (b ++ d) ++ post) with (pre ++ map Val ((a ++ c) ++ b ++ d) ++ post) by solve_app.
        apply HR'; apply app_length. }
      intros r1 HM1. pose proof (is_merge_length _ _ _ _ HM1) as Lr1.
      reshape ((pre ++ map Val r1) ++ map Val (b ++ d) ++ post).
      apply IH; auto; try (lens; fail).
      { replace ((pre ++ map Val r1) ++ map Val (b ++ d) ++ post) with (pre ++ map Val (r1 ++ b ++ d) ++ post) by solve_app.
        apply HR'; auto; apply app_length. }
      intros r2 HM2. replace ((pre ++ map Val r1) ++ map Val r2 ++ post) with (pre ++ map Val (r1 ++ r2) ++ post) by solve_app.
      apply HQ. apply is_merge_split; auto.
    - apply wp_bind. reshape ((pre ++ map Val (a ++ c)) ++ map Val (b ++ d) ++ post).
      apply IH; auto; try (lens; fail).
      { replace ((pre ++ map Val (a ++ c)) ++ map Val (b ++ d) ++ post) with (pre ++ map Val ((a ++ c) ++ b ++ d) ++ post) by solve_app.
        apply HR'; apply app_length. }
      intros r2 HM2. pose proof (is_merge_length _ _ _ _ HM2) as Lr2.
      reshape (pre ++ map Val (a ++ c) ++ (map Val r2 ++ post)).
      apply IH; auto; try lia.
      { replace (pre ++ map Val (a ++ c) ++ map Val r2 ++ post) with (pre ++ map Val ((a ++ c) ++ r2) ++ post) by solve_app.
        apply HR'; auto; apply app_length. }
      intros r1 HM1. replace (pre ++ map Val r1 ++ map Val r2 ++ post) with (pre ++ map Val (r1 ++ r2) ++ post) by solve_app.
      apply HQ. apply is_merge_split; auto. }
  cbv zeta in Hrest |- *.
  destruct (Nat.ltb_spec (length l1) (length l2)) as [Hlt|Hge].
  - destruct (nth_some _ l2 (length l2 / 2)) as (v & Hv); [lia|].
    apply wp_bind. rewrite <- Nat.add_assoc. eapply wp_get_list. { rewrite nth_error_app2 by lia. rewrite <- Hv. f_equal. lia. }
    apply wp_bind. reshape (pre ++ map Val l1 ++ (map Val l2 ++ post)).
    apply upper_bound_wp; auto. intros a b [Eab Hab].
    reshape (pre ++ map Val (l1 ++ l2) ++ post).
    replace (length pre + length a - length pre) with (length a) by lia.
    apply list_split_nth in Hv as (c & d & Ecd & Lc). rewrite <- Lc. rewrite Nat.add_assoc.
    apply (Hrest a b c (v :: d)); auto; try (simpl; lia).
    intros HW S1 S2. rewrite <- Eab in S1. destruct (Hab (mono_ngt lt HW l1 v S1)) as [Ha Hb].
    apply sorted_app in S2 as (_ & Svd & Hcv). apply sorted_cons in Svd as [Hvd _].
    split.
    + intros u w Hu Hw. specialize (Hb u Hu). apply negb_false_iff in Hb.
      eapply le_lt_trans; [auto| |exact Hb]. apply Hcv; simpl; auto.
    + intros u w Hu Hw. specialize (Ha u Hu). apply negb_true_iff in Ha.
      apply le_trans with v; auto. destruct Hw as [<-|Hw]; auto. apply le_refl; auto.
  - destruct (Nat.eqb_spec (length l1) 1) as [E1|E1].
    + destruct t; [|simpl in E1; lia]. destruct l2'; [|simpl in *; lia]. subst l1 l2.
      reshape (pre ++ Val x :: [] ++ Val y :: post). apply wp_swap_at; try (simpl; lens; fail).
      replace (pre ++ Val y :: [] ++ Val x :: post) with (pre ++ map Val [y; x] ++ post) by solve_app.
      apply HQ. pose proof (is_merge_merge lt [x] [y]) as HM. simpl in HM. rewrite Hxy in HM. exact HM.
    + destruct (nth_some _ l1 (length l1 / 2)) as (v & Hv); [lia|].
      apply wp_bind. eapply wp_get_list. { rewrite nth_error_app1 by lia. exact Hv. }
      apply wp_bind. reshape ((pre ++ map Val l1) ++ map Val l2 ++ post).
      apply lower_bound_wp; auto. { lens. } intros c d [Ecd Hcd].
      reshape (pre ++ map Val (l1 ++ l2) ++ post).
      replace (length pre + length l1 + length c - (length pre + length l1)) with (length c) by lia.
      apply list_split_nth in Hv as (a & b & Eab & La). rewrite <- La.
      apply (Hrest a (v :: b) c d); auto; try (simpl; lia).
      intros HW S1 S2. rewrite <- Ecd in S2. destruct (Hcd (mono_lt lt HW l2 v S2)) as [Hc Hd].
      apply sorted_app in S1 as (_ & Svb & Hav). apply sorted_cons in Svb as [Hvb _].
      split.
      * intros u w Hu Hw. specialize (Hc w Hw).
        destruct Hu as [<-|Hu]; auto. eapply lt_le_trans; [auto|exact Hc|auto].
      * intros u w Hu Hw. specialize (Hd w Hw). apply le_trans with v; auto. apply Hav; simpl; auto.
Qed.

(** ** Forward iterators *)
Lemma recmerge_forward_wp : forall triv fuel l1 l2 pre post f0 f1 n0 n1 buff bs (Q : unit -> mem A -> Prop),
  length l1 + length l2 < fuel ->
  f0 = length pre -> f1 = f0 + length l1 -> n0 = length l1 -> n1 = length l2 ->
  bs = 0 \/ (length l1 <= bs /\ length l1 <= length l2) ->
  raws buff bs (pre ++ map Val (l1 ++ l2) ++ post) ->
  (forall ys, is_merge lt l1 l2 ys -> Q tt (pre ++ map Val ys ++ post)) ->
  wp (recmerge_forward comp proj triv fuel f0 n0 f1 n1 buff bs) Q (pre ++ map Val (l1 ++ l2) ++ post).
Proof.
  induction fuel as [|fuel IH]; intros l1 l2 pre post f0 f1 n0 n1 buff bs Q
    HF -> -> -> -> HB HR HQ; [lia|].
  cbn [recmerge_forward].
  destruct (Nat.eqb_spec (length l1) 0) as [G1|G1]; simpl orb; cbv iota.
  { apply wp_ret. apply HQ. destruct l1; [|simpl in *; lia]. apply is_merge_nil_l. }
  destruct (Nat.eqb_spec (length l2) 0) as [G2|G2].
  { apply wp_ret. apply HQ. destruct l2; [|simpl in *; lia]. rewrite app_nil_r. apply is_merge_nil_r. }
  destruct (Nat.leb_spec (length l1) bs) as [L|L].
  { apply half_merge_forward_wp; auto; try lia.
    - eapply raws_le; eauto.
    - apply HQ. apply is_merge_merge. }
  destruct HB as [->|[HB _]]; [|lia]. clear L.
  destruct (Nat.ltb_spec (length l1) (length l2)) as [Hlt|Hge].
  - destruct (nth_some _ l1 (length l1 / 2)) as (v & Hv); [lia|].
    apply wp_bind. eapply wp_get_list. { rewrite nth_error_app1 by lia. exact Hv. }
    apply wp_bind. reshape ((pre ++ map Val l1) ++ map Val l2 ++ post).
    apply lower_bound_n_wp; auto. { lens. } intros c d [Ecd Hcd].
    apply list_split_nth in Hv as (a & b & Eab & La). rewrite <- La. clear La. subst l1 l2. rewrite !app_length in *. simpl length in *.
    apply wp_bind. reshape ((pre ++ map Val a) ++ map Val ((v :: b) ++ c) ++ (map Val d ++ post)).
    apply rotate_wp; try (lens; fail).
    replace (length (pre ++ map Val a) + length c - (length pre + length a)) with (length c) by lens.
    apply wp_bind. reshape (pre ++ map Val (a ++ c) ++ (map Val (v :: b ++ d) ++ post)).
    apply IH; auto; try lia; try apply raws_0.
    intros r1 HM1. pose proof (is_merge_length _ _ _ _ HM1) as Lr1.
    reshape ((pre ++ map Val (r1 ++ [v])) ++ map Val (b ++ d) ++ post).
    apply IH; auto; try (lens; fail); try apply raws_0.
    intros r2 HM2. replace ((pre ++ map Val (r1 ++ [v])) ++ map Val r2 ++ post) with (pre ++ map Val (r1 ++ v :: r2) ++ post) by solve_app.
    apply HQ. apply is_merge_split_min; auto.
    intros HW S1 S2. destruct (Hcd (mono_lt lt HW _ v S2)) as [Hc Hd]. split; auto.
  - destruct (nth_some _ l2 (length l2 / 2)) as (v & Hv); [lia|].
    apply wp_bind. rewrite <- Nat.add_assoc. eapply wp_get_list. { rewrite nth_error_app2 by lia. rewrite <- Hv. f_equal. lia. }
    apply wp_bind. reshape (pre ++ map Val l1 ++ (map Val l2 ++ post)).
    apply upper_bound_n_wp; auto. intros a b [Eab Hab].
    apply list_split_nth in Hv as (c & d & Ecd & Lc). rewrite <- Lc. clear Lc. subst l1 l2. rewrite !app_length in *. simpl length in *.
    apply wp_bind. reshape ((pre ++ map Val a) ++ map Val (b ++ (c ++ [v])) ++ (map Val d ++ post)).
    apply rotate_wp; try (lens; fail).
    replace (length pre + length a - length pre) with (length a) by lia.
    apply wp_bind. reshape (pre ++ map Val (a ++ c) ++ (map Val (v :: b ++ d) ++ post)).
    apply IH; auto; try lia; try apply raws_0.
    intros r1 HM1. pose proof (is_merge_length _ _ _ _ HM1) as Lr1.
    reshape ((pre ++ map Val (r1 ++ [v])) ++ map Val (b ++ d) ++ post).
    apply IH; auto; try (lens; fail); try apply raws_0.
    intros r2 HM2. replace ((pre ++ map Val (r1 ++ [v])) ++ map Val r2 ++ post) with (pre ++ map Val (r1 ++ v :: r2) ++ post) by solve_app.
    apply HQ. apply is_merge_split_max; auto.
    intros HW S1 S2. destruct (Hab (mono_ngt lt HW _ v S1)) as [Ha Hb]. split.
    + intros x Hx. specialize (Hb x Hx). apply negb_false_iff in Hb. auto.
    + intros x Hx. specialize (Ha x Hx). apply negb_true_iff in Ha. auto.
Qed.

Lemma inplace_merge_buffered_wp : forall cat triv l1 l2 pre post first middle last len1 len2 buff bs (Q : unit -> mem A -> Prop),
  first = length pre -> middle = first + length l1 -> last = middle + length l2 ->
  len1 = length l1 -> len2 = length l2 ->
  (cat = Forward -> bs = 0 \/ (length l1 <= bs /\ length l1 <= length l2)) ->
  raws buff bs (pre ++ map Val (l1 ++ l2) ++ post) ->
  (forall ys, is_merge lt l1 l2 ys -> Q tt (pre ++ map Val ys ++ post)) ->
  wp (inplace_merge_buffered comp proj cat triv first middle last len1 len2 buff bs) Q (pre ++ map Val (l1 ++ l2) ++ post).
Proof.
  intros cat triv l1 l2 pre post first middle last len1 len2 buff bs Q -> -> -> -> -> HB HR HQ.
  unfold inplace_merge_buffered. destruct cat.
  - apply recmerge_forward_wp; auto.
  - apply recmerge_bidirectional_wp; auto.
  - apply symmerge_wp; auto; lia.
Qed.
End Merge.
