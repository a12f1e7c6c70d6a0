From Coq Require Import List Bool Arith Lia Permutation.
From Verif Require Import Spec.Order Spec.Sorts Lang.Mem Proofs.Wp Proofs.OrderLib Proofs.Basic Proofs.Indirect Proofs.Adapters Model.Basic Model.Networks
  Model.Fixed Model.Adapters Model.SmallArray Spec.SmallArray Props.Networks Props.Fixed.
Import ListNotations.

Lemma has_single_bit_spec : forall n, has_single_bit n = true <-> exists k, n = 2 ^ k.
Proof.
  intros n. unfold has_single_bit. rewrite andb_true_iff, negb_true_iff, Nat.eqb_neq, Nat.eqb_eq. split.
  - intros [_ E]. eauto.
  - intros (k & ->). rewrite Nat.log2_pow2 by lia. split; auto. apply Nat.pow_nonzero. lia.
Qed.

Lemma instantiable_spec : forall f n, instantiable f n = true <-> documented f n.
Proof.
  intros [] n; cbn [instantiable documented].
  - rewrite Nat.ltb_lt. lia.
  - tauto.
  - tauto.
  - rewrite orb_true_iff, Nat.eqb_eq, has_single_bit_spec. tauto.
  - rewrite Nat.ltb_lt. lia.
Qed.

Lemma is_in_pack_spec : forall n l, is_in_pack n l = true <-> In n l.
Proof.
  intros n l. unfold is_in_pack. rewrite existsb_exists. split.
  - intros (x & H & E). apply Nat.eqb_eq in E. now subst.
  - intros H. exists n. split; auto. apply Nat.eqb_refl.
Qed.

Lemma small_array_calls : forall f i n x, small_array f i n = Calls x ->
  x = (f, n) /\ documented f n /\ (forall l, indices f i = Some l -> In n l).
Proof.
  intros f i n x. unfold small_array, instantiate. destruct (indices f i) as [l|].
  - destruct (is_in_pack n l) eqn:E; [|discriminate]. destruct (instantiable f n) eqn:F; [|discriminate]. intros H. inversion H.
    split; [reflexivity|]. split; [now apply instantiable_spec|]. intros l' E'. inversion E'; subst. now apply is_in_pack_spec.
  - destruct (instantiable f n) eqn:F; [|discriminate]. intros H. inversion H.
    split; [reflexivity|]. split; [now apply instantiable_spec|]. discriminate.
Qed.

(** * Stability of the networks of 2 and 3 inputs *)
Section Stable.
Context {A T : Type} (comp : T -> T -> bool) (proj : A -> T).
Notation lt := (by_proj comp proj).

Definition order2 (a b : A) : list A := if lt b a then [b; a] else [a; b].

Lemma swap_adjacent_wp : forall (l1 l2 : mem A) a b i j (Q : unit -> mem A -> Prop), i = length l1 -> j = length l1 + 1 ->
  Q tt (l1 ++ map Val (order2 a b) ++ l2) -> wp (iter_swap_if comp proj i j) Q (l1 ++ Val a :: Val b :: l2).
Proof.
  intros l1 l2 a b i j Q -> -> HQ.
  assert (nth_error (l1 ++ Val a :: Val b :: l2) (length l1) = Some (Val a)) as Ha.
  { rewrite nth_error_app2, Nat.sub_diag by lia. reflexivity. }
  assert (nth_error (l1 ++ Val a :: Val b :: l2) (length l1 + 1) = Some (Val b)) as Hb.
  { rewrite nth_error_app2 by lia. now replace (length l1 + 1 - length l1) with 1 by lia. }
  eapply wp_iter_swap_if; eauto. unfold order2 in HQ. destruct (lt b a); [|exact HQ].
  unfold iter_swap_if in *. clear Ha Hb.
  replace (upd (length l1 + 1) (Val a) (upd (length l1) (Val b) (l1 ++ Val a :: Val b :: l2))) with (l1 ++ map Val [b; a] ++ l2); auto.
  clear HQ. induction l1; cbn; [reflexivity|]. f_equal. exact IHl1.
Qed.

Lemma order2_filter : forall a b x, strict_weak_order lt -> filter (equivalent lt x) (order2 a b) = filter (equivalent lt x) [a; b].
Proof.
  intros a b x H. unfold order2. destruct (lt b a) eqn:E; auto. cbn.
  destruct (equivalent lt x a) eqn:Ea, (equivalent lt x b) eqn:Eb; auto.
  exfalso. unfold equivalent in *. apply andb_true_iff in Ea as [A1 A2], Eb as [B1 B2].
  rewrite negb_true_iff in *. destruct (swo_incomp _ H b x a); auto. congruence.
Qed.

Lemma order2_app_filter : forall l1 l2 a b x, strict_weak_order lt ->
  filter (equivalent lt x) (l1 ++ order2 a b ++ l2) = filter (equivalent lt x) (l1 ++ a :: b :: l2).
Proof. intros. rewrite !filter_app, order2_filter, <- !filter_app; auto. Qed.
End Stable.

(** * schwartz_adapter for one size *)
Section Schwartz.
Context {A T : Type} (comp : T -> T -> bool) (proj : A -> T).

Lemma wp_with_associations_at : forall D (R : list (A * D) -> list (A * D) -> Prop) sorter pre xs post data (Q : unit -> mem A -> Prop),
  (forall v v', R v v' -> Permutation v v') -> length data = length xs ->
  (exists v, sorter 0 (length xs) (map Val (combine xs data)) = Ok tt (map Val v) /\ R (combine xs data) v) ->
  (forall v, R (combine xs data) v -> Q tt (pre ++ map Val (map fst v) ++ post)) ->
  wp (with_associations (length pre) data sorter) Q (pre ++ map Val xs ++ post).
Proof.
  intros D R sorter pre xs post data Q HRP HL (v & Ev & Hv) HQ. unfold wp, with_associations.
  rewrite HL. rewrite skipn_app, skipn_all, Nat.sub_diag. simpl.
  rewrite firstn_app, map_length, Nat.sub_diag, firstn_O, app_nil_r.
  rewrite firstn_all2 by (rewrite map_length; lia). rewrite values_map, Nat.eqb_refl.
  assert (length (combine xs data) = length xs) as HC by (rewrite combine_length; lia).
  rewrite Ev.
  pose proof (Permutation_length (HRP _ _ Hv)) as HLv.
  rewrite map_length, <- HLv, HC, Nat.eqb_refl.
  replace (firstn (length pre) (pre ++ map Val xs ++ post)) with pre.
  2:{ rewrite firstn_app, firstn_all, Nat.sub_diag. simpl. now rewrite app_nil_r. }
  replace (skipn (length pre + length xs) (pre ++ map Val xs ++ post)) with post.
  2:{ rewrite app_assoc, skipn_app. rewrite skipn_all2 by (rewrite app_length, map_length; lia).
      rewrite app_length, map_length. now rewrite Nat.sub_diag. }
  replace (map fst_cell (map Val v)) with (map (@Val A) (map fst v)); auto.
  rewrite !map_map. apply map_ext. intros [a d]. reflexivity.
Qed.

Lemma schwartz_wp_at : forall (R : list (A * T) -> list (A * T) -> Prop) inner pre xs post (Q : list A -> mem A -> Prop),
  (forall v v', R v v' -> Permutation v v') ->
  (exists v, inner comp snd 0 (length xs) (map Val (combine xs (map proj xs))) = Ok tt (map Val v) /\ R (combine xs (map proj xs)) v) ->
  (forall v, R (combine xs (map proj xs)) v -> Q xs (pre ++ map Val (map fst v) ++ post)) ->
  wp (sort_with_schwartz inner comp proj (length pre) (length xs)) Q (pre ++ map Val xs ++ post).
Proof.
  intros R inner pre xs post Q HRP HR HQ. unfold sort_with_schwartz.
  apply wp_bind.
  eapply wp_loop' with (mu := fun '(count, _, _, _) => length xs - count)
    (I := fun '(count, first, projected, calls) m => exists done todo, xs = done ++ todo /\
       count = length done /\ first = length pre + length done /\
       projected = map proj done /\ calls = done /\ m = pre ++ map Val xs ++ post).
  - exists [], xs. repeat split; auto; cbn; lia.
  - lia.
  - intros [[[count first] projected] calls] m (done & todo & Ex & -> & -> & -> & -> & ->).
    destruct (Nat.eqb_spec (length done) (length xs)) as [E|E].
    + apply wp_ret. assert (todo = []) as ->.
      { subst xs. rewrite app_length in E. destruct todo; [auto|cbn in E; lia]. }
      rewrite app_nil_r in Ex. subst done.
      apply wp_bind. eapply wp_with_associations_at; eauto. { now rewrite map_length. }
    + destruct todo as [|a todo]. { subst xs. rewrite app_nil_r in E. lia. }
      apply wp_bind. eapply wp_get. { rewrite Ex. apply nth_split_at. }
      apply wp_ret. split; [|subst xs; rewrite app_length; cbn; lia]. exists (done ++ [a]), todo. rewrite app_length, map_app. cbn.
      repeat split; auto; try lia. now rewrite <- app_assoc.
Qed.

Lemma schwartz_size : forall n (inner : (T -> T -> bool) -> (A * T -> T) -> range_prog (A * T)),
  sorts_size n (by_proj comp snd) (inner comp snd) ->
  forall pre xs post, length xs = n -> exists calls ys,
    sort_with_schwartz inner comp proj (length pre) (length xs) (pre ++ map Val xs ++ post) = Ok calls (pre ++ map Val ys ++ post)
    /\ calls = xs /\ is_sorting_of (by_proj comp proj) xs ys.
Proof.
  intros n inner HI pre xs post Hn.
  assert (wp (sort_with_schwartz inner comp proj (length pre) (length xs))
    (fun calls m => exists ys, m = pre ++ map Val ys ++ post /\ calls = xs /\ is_sorting_of (by_proj comp proj) xs ys)
    (pre ++ map Val xs ++ post)) as H.
  { eapply schwartz_wp_at with (R := is_sorting_of (by_proj comp snd)).
    - intros v v' []; auto.
    - assert (length (combine xs (map proj xs)) = length xs) as HC by (rewrite combine_length, map_length; lia).
      destruct (HI [] (combine xs (map proj xs)) []) as (v & E & H); [lia|]. exists v. split; auto.
      cbn in E. rewrite !app_nil_r, HC in E. exact E.
    - intros v Hv. exists (map fst v). split; [reflexivity|]. split; [reflexivity|]. now apply schwartz_sorting. }
  apply wp_ok in H as (calls & m & E & ys & -> & H). eauto.
Qed.

Lemma schwartz_size_stably : forall n (inner : (T -> T -> bool) -> (A * T -> T) -> range_prog (A * T)),
  sorts_size_stably n (by_proj comp snd) (inner comp snd) ->
  forall pre xs post, length xs = n -> exists calls ys,
    sort_with_schwartz inner comp proj (length pre) (length xs) (pre ++ map Val xs ++ post) = Ok calls (pre ++ map Val ys ++ post)
    /\ calls = xs /\ is_stable_sorting_of (by_proj comp proj) xs ys.
Proof.
  intros n inner HI pre xs post Hn.
  assert (wp (sort_with_schwartz inner comp proj (length pre) (length xs))
    (fun calls m => exists ys, m = pre ++ map Val ys ++ post /\ calls = xs /\ is_stable_sorting_of (by_proj comp proj) xs ys)
    (pre ++ map Val xs ++ post)) as H.
  { eapply schwartz_wp_at with (R := is_stable_sorting_of (by_proj comp snd)).
    - intros v v' []; auto.
    - assert (length (combine xs (map proj xs)) = length xs) as HC by (rewrite combine_length, map_length; lia).
      destruct (HI [] (combine xs (map proj xs)) []) as (v & E & H); [lia|]. exists v. split; auto.
      cbn in E. rewrite !app_nil_r, HC in E. exact E.
    - intros v Hv. exists (map fst v). split; [reflexivity|]. split; [reflexivity|]. now apply schwartz_stable_sorting. }
  apply wp_ok in H as (calls & m & E & ys & -> & H). eauto.
Qed.
End Schwartz.

Section Networks.
Context {A T : Type} (comp : T -> T -> bool) (proj : A -> T).
Notation lt := (by_proj comp proj).

Lemma network_order : forall n pre xs post, strict_weak_order lt -> n < 4 -> length xs = n ->
  wp (sorting_network_sorter comp proj n (length pre) (length pre + length xs))
    (fun _ m => exists ys, m = pre ++ map Val ys ++ post /\ same_order_in_classes lt xs ys) (pre ++ map Val xs ++ post).
Proof.
  intros n pre xs post HW Hn HL.
  destruct xs as [|a [|b [|c [|d xs]]]]; cbn in HL; subst n; try lia.
  - apply wp_ret. exists []. split; auto. now intros x.
  - apply wp_ret. exists [a]. split; auto. now intros x.
  - cbn -[iter_swap_if wp]. apply wp_bind. apply swap_adjacent_wp; try (cbn; lia).
    apply wp_ret. exists (order2 comp proj a b). split; auto. intros x. now apply order2_filter.
  - cbn -[iter_swap_if wp bind]. apply wp_bind. apply swap_adjacent_wp; try (cbn; lia).
    assert (exists a' b', order2 comp proj a b = [a'; b']) as (a' & b' & E1) by (unfold order2; destruct (lt b a); eauto).
    pose proof (fun x => order2_app_filter comp proj [] [c] a b x HW) as F1. rewrite E1 in F1 |- *. cbn -[iter_swap_if wp bind].
    apply wp_bind. replace (pre ++ Val a' :: Val b' :: Val c :: post) with ((pre ++ [Val a']) ++ Val b' :: Val c :: post) by (now rewrite <- app_assoc).
    apply swap_adjacent_wp; try (rewrite app_length; cbn; lia).
    assert (exists b'' c'', order2 comp proj b' c = [b''; c'']) as (b'' & c'' & E2) by (unfold order2; destruct (lt c b'); eauto).
    pose proof (fun x => order2_app_filter comp proj [a'] [] b' c x HW) as F2. rewrite E2 in F2 |- *. rewrite <- app_assoc. cbn -[iter_swap_if wp bind].
    apply wp_bind. apply swap_adjacent_wp; try (cbn; lia).
    pose proof (fun x => order2_app_filter comp proj [] [c''] a' b'' x HW) as F3.
    apply wp_ret. exists (order2 comp proj a' b'' ++ [c'']). split. { now rewrite map_app, <- app_assoc. }
    intros x. cbn [app] in F1, F2, F3. rewrite F3, F2. apply F1.
Qed.

Lemma network_stable : forall n, strict_weak_order comp -> n < 4 -> sorts_size_stably n lt (sorting_network_sorter comp proj n).
Proof.
  intros n HC Hn pre xs post HL.
  destruct (C26_sorting_network_sorter_sorts A T comp proj n HC ltac:(lia) pre xs post HL) as (ys & E & HP & HS).
  exists ys. split; auto. split; auto. split; auto.
  assert (strict_weak_order lt) as HW by now apply swo_by_proj.
  pose proof (network_order n pre xs post HW Hn HL) as H. unfold wp in H. rewrite E in H. destruct H as (zs & Ez & H).
  apply app_inv_head, app_inv_tail in Ez. 
  assert (ys = zs) as ->; auto. clear - Ez. revert zs Ez. induction ys; intros [|z zs] E; cbn in E; try discriminate; auto.
  inversion E. f_equal. auto.
Qed.
End Networks.
