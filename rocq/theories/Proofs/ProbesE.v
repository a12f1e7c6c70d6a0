(** Proofs about the probes that use the sorted vector of iterators: ham, max, osc. *)
From Coq Require Import List Arith Lia Permutation Bool ZArith Zify ZifyNat.
From Verif Require Import Spec.Order Spec.Probes Lang.Mem Spec.Sorts Proofs.Wp Proofs.OrderLib Proofs.Search Model.Search
  Model.Heap Model.Rotate Model.Indirect Proofs.Indirect Model.Probes Proofs.ProbesA Proofs.ProbesC.
Import ListNotations.
Ltac Zify.zify_post_hook ::= Z.to_euclidean_division_equations.

(** * Ranks in a sorted list *)
Section Rank.
Context {E : Type} (lt : E -> E -> bool).
Hypothesis HW : strict_weak_order lt.

(** Number of elements that are not greater than [v]. *)
Definition upto (v : E) (l : list E) : nat := length (filter (fun y => negb (lt v y)) l).

Lemma split_count : forall (P : E -> bool) u v, (forall x, In x u -> P x = true) -> (forall x, In x v -> P x = false) ->
  length (filter P (u ++ v)) = length u.
Proof.
  intros P u v Hu Hv. rewrite filter_app, app_length. rewrite filter_all by auto.
  assert (filter P v = []) as ->; [|simpl; lia].
  clear Hu. induction v as [|a v IH]; simpl; auto. rewrite (Hv a) by (left; auto). apply IH. intros; apply Hv; right; auto.
Qed.

Lemma rank_mono : forall (P : E -> bool) l, mono P l -> forall i x, nth_error l i = Some x ->
  (P x = true <-> i < length (filter P l)).
Proof.
  intros P. induction l as [|a l IH]; intros HM i x Hi; [destruct i; discriminate|].
  assert (mono P l) as HM'.
  { intros p q y z Hpq Hp Hq. apply (HM (S p) (S q)); simpl; auto. lia. }
  destruct (P a) eqn:Ea; simpl; rewrite Ea; simpl length.
  - destruct i as [|i]; simpl in Hi; [inversion Hi; subst; split; auto; lia|]. rewrite (IH HM' i x Hi). lia.
  - assert (forall y, In y l -> P y = false) as Hall.
    { intros y Hy. apply In_nth_error in Hy as (k & Hk). destruct (P y) eqn:Ey; auto.
      rewrite <- Ea. symmetry. apply (HM 0 (S k) a y); simpl; auto. lia. }
    assert (length (filter P l) = 0) as ->. { apply (split_count P [] l); auto; intros ? [].   }
    destruct i as [|i]; simpl in Hi.
    + inversion Hi; subst. rewrite Ea. split; [discriminate|lia].
    + rewrite (Hall x) by (eapply nth_error_In; eauto). split; [discriminate|lia].
Qed.

Lemma sorted_mono_lt : forall v l, sorted lt l -> mono (fun y => lt y v) l.
Proof.
  intros v l HS i j x y Hij Hi Hj Hy. apply (le_lt_trans lt HW) with (y := y); auto. red. eapply HS; eauto.
Qed.
Lemma sorted_mono_ngt : forall v l, sorted lt l -> mono (fun y => negb (lt v y)) l.
Proof.
  intros v l HS i j x y Hij Hi Hj Hy. apply negb_true_iff in Hy. apply negb_true_iff.
  apply (le_trans lt HW) with (y := y); auto. red. eapply HS; eauto.
Qed.
Lemma rank_below : forall v l i x, sorted lt l -> nth_error l i = Some x -> (lt x v = true <-> i < below lt v l).
Proof. intros v l i x HS Hi. exact (rank_mono _ l (sorted_mono_lt v l HS) i x Hi). Qed.
Lemma rank_upto : forall v l i x, sorted lt l -> nth_error l i = Some x -> (lt v x = false <-> i < upto v l).
Proof.
  intros v l i x HS Hi. rewrite <- (rank_mono _ l (sorted_mono_ngt v l HS) i x Hi). now rewrite negb_true_iff.
Qed.
Lemma below_upto : forall v l, below lt v l <= upto v l.
Proof.
  intros v l. unfold below, upto. induction l as [|a l IH]; simpl; auto.
  destruct (lt a v) eqn:E1; simpl.
  - rewrite (lt_asym lt HW a v E1). simpl. lia.
  - destruct (lt v a); simpl; lia.
Qed.
Lemma upto_le : forall v l, upto v l <= length l.
Proof. intros. apply filter_length_le. Qed.
Lemma upto_perm : forall v l r, Permutation l r -> upto v l = upto v r.
Proof.
  intros v l r H. unfold upto. induction H; simpl; auto.
  - destruct (negb (lt v x)); simpl; auto.
  - destruct (negb (lt v x)), (negb (lt v y)); simpl; auto.
  - congruence.
Qed.
Lemma below_equiv : forall v w l, equivalent lt v w = true -> below lt v l = below lt w l.
Proof.
  intros v w l H. unfold below. f_equal. apply filter_ext. intros y. apply eqv_spec in H as [H1 H2].
  destruct (lt y v) eqn:E1, (lt y w) eqn:E2; auto.
  - now rewrite (lt_le_trans lt HW y v w E1 H1) in E2.
  - now rewrite (lt_le_trans lt HW y w v E2 H2) in E1.
Qed.
Lemma upto_equiv : forall v w l, equivalent lt v w = true -> upto v l = upto w l.
Proof.
  intros v w l H. unfold upto. f_equal. apply filter_ext. intros y. f_equal. apply eqv_spec in H as [H1 H2].
  destruct (lt v y) eqn:E1, (lt w y) eqn:E2; auto.
  - now rewrite (le_lt_trans lt HW w v y H2 E1) in E2.
  - now rewrite (le_lt_trans lt HW v w y H1 E2) in E1.
Qed.

(** Two sortings of the same elements are equivalent position by position. *)
Lemma sortings_equiv : forall ys zs, Permutation ys zs -> sorted lt ys -> sorted lt zs ->
  forall i y z, nth_error ys i = Some y -> nth_error zs i = Some z -> equivalent lt y z = true.
Proof.
  intros ys zs HP HSy HSz i y z Hy Hz. apply eqv_spec. split.
  - destruct (lt z y) eqn:El; auto. apply (rank_below y zs i z HSz Hz) in El.
    rewrite <- (below_perm lt y ys zs HP) in El. apply (rank_below y ys i y HSy Hy) in El. rewrite (lt_irrefl lt HW) in El. discriminate.
  - destruct (lt y z) eqn:El; auto. apply (rank_below z ys i y HSy Hy) in El.
    rewrite (below_perm lt z ys zs HP) in El. apply (rank_below z zs i z HSz Hz) in El. rewrite (lt_irrefl lt HW) in El. discriminate.
Qed.
End Rank.

Section EqualRange.
Context {E T : Type} (comp : T -> T -> bool) (proj : E -> T).
Hypothesis HC : strict_weak_order comp.
Notation lt := (by_proj comp proj).
Let HW : strict_weak_order lt := swo_by_proj _ _ comp proj HC.

Lemma part_at_all : forall P (xs u v : list E), part_at P xs u v -> mono P xs -> length u = length (filter P xs).
Proof. intros P xs u v [-> H] HM. destruct (H HM). symmetry. now apply split_count. Qed.

Lemma sorted_sub : forall a b c : list E, sorted lt (a ++ b ++ c) -> sorted lt b.
Proof. intros a b c H. apply sorted_app in H as (_ & H & _). now apply sorted_app in H. Qed.

Lemma equal_range_wp : forall l v (Q : nat * nat -> mem E -> Prop), sorted lt l ->
  Q (below lt v l, upto lt v l) (map Val l) -> wp (equal_range comp proj 0 (length l) (proj v)) Q (map Val l).
Proof.
  intros l v Q HS HQ. unfold equal_range.
  apply wp_loop' with (mu := fun '(first, last, len) => len)
    (I := fun '(first, last, len) m => exists a b c, l = a ++ b ++ c /\ first = length a /\ last = length a + length b /\ len = length b /\
       (forall x, In x a -> lt x v = true) /\ (forall x, In x c -> lt v x = true) /\ m = map Val l).
  - exists [], l, []. cj; simpl; auto; try lia; try tauto. now rewrite app_nil_r.
  - lia.
  - intros [[first last] len] m (a & b & c & El & -> & -> & -> & Ha & Hc & ->).
    assert (forall x, In x c -> lt x v = false) as Hc' by (intros; apply (lt_asym lt HW); auto).
    assert (forall x, In x a -> lt v x = false) as Ha' by (intros; apply (lt_asym lt HW); auto).
    destruct (Nat.eqb_spec (length b) 0) as [E0|E0].
    + assert (b = []) as -> by (destruct b; auto; simpl in E0; lia). apply wp_ret. simpl in El.
      replace (length a) with (below lt v l) at 1. replace (length a) with (upto lt v l); auto.
      * subst l. unfold upto. apply split_count; intros x Hx; [apply negb_true_iff|apply negb_false_iff]; auto.
      * subst l. unfold below. apply split_count; auto.
    + set (k := length b / 2). assert (k < length b) as Hk by (unfold k; lia).
      destruct (nth_some _ b k Hk) as (z & Hz).
      apply nth_error_split in Hz as (b1 & b2 & Eb & HLb1). 
      assert (sorted lt b) as HSb by (subst l; eapply sorted_sub; eauto).
      rewrite Eb in HSb. apply sorted_app in HSb as (HSb1 & HSb2 & HSb). apply sorted_cons in HSb2 as (HSz & HSb2).
      apply wp_bind. rewrite <- (app_nil_r (map Val l)). rewrite <- (app_nil_l (map Val l ++ [])).
      change (length a + k) with (length (@nil (cell E)) + (length a + k)). eapply wp_get_list.
      { subst l b. rewrite nth_error_app2 by lia. replace (length a + k - length a) with k by lia.
        rewrite <- app_assoc. rewrite nth_error_app2 by lia. rewrite HLb1, Nat.sub_diag. reflexivity. }
      simpl app. rewrite app_nil_r. change (comp (proj z) (proj v)) with (lt z v). change (comp (proj v) (proj z)) with (lt v z).
      change (length (@nil (cell E)) + (length a + k)) with (length a + k).
      destruct (lt z v) eqn:E1; [|destruct (lt v z) eqn:E2].
      * apply wp_ret. split; [|fold k; lia]. exists (a ++ b1 ++ [z]), b2, c. cj; auto; try (subst b; lens; fail).
        -- subst l b. rewrite <- !app_assoc. reflexivity.
        -- intros x Hx. apply in_app_or in Hx as [Hx|Hx]; auto. apply in_app_or in Hx as [Hx|[<-|[]]]; auto.
           apply (le_lt_trans lt HW) with (y := z); auto. apply HSb; auto. left; auto.
      * apply wp_ret. split; [|fold k; lia]. exists a, b1, (z :: b2 ++ c). cj; auto; try (subst b; lens; fail).
        -- subst l b. rewrite <- !app_assoc. reflexivity.
        -- intros x [<-|Hx]; auto. apply in_app_or in Hx as [Hx|Hx]; auto.
           apply (lt_le_trans lt HW) with (y := z); auto.
      * apply wp_bind.
        assert (map Val l = map Val a ++ map Val b1 ++ map Val (z :: b2 ++ c)) as Em1.
        { subst l b. rewrite <- !map_app. f_equal. rewrite <- !app_assoc. reflexivity. }
        assert (map Val l = map Val (a ++ b1 ++ [z]) ++ map Val b2 ++ map Val c) as Em2.
        { subst l b. rewrite <- !map_app. f_equal. rewrite <- !app_assoc. reflexivity. }
        apply (wp_eq_mem _ _ _ _ _ _ Em1).
        apply lower_bound_wp; try (rewrite ?map_length; lia).
        intros u w Huw. rewrite <- Em1. apply wp_bind. apply (wp_eq_mem _ _ _ _ _ _ Em2).
        apply upper_bound_wp; try (subst b; lens; fail).
        intros u' w' Huw'. rewrite <- Em2. apply wp_ret. fold k.
        replace (length a + length u) with (below lt v l). replace (S (length a + k) + length u') with (upto lt v l); auto.
        -- rewrite (part_at_all _ _ _ _ Huw' (sorted_mono_ngt lt HW v b2 HSb2)).
           subst l b. replace (a ++ (b1 ++ z :: b2) ++ c) with ((a ++ b1 ++ [z]) ++ b2 ++ c) by (rewrite <- !app_assoc; reflexivity).
           unfold upto. rewrite !filter_app, !app_length. rewrite (filter_all _ a), (filter_all _ b1), (filter_all _ [z]).
           ++ simpl length. change (fun x => negb (comp (proj v) (proj x))) with (fun x => negb (lt v x)).
              assert (length (filter (fun x => negb (lt v x)) c) = 0) as ->; [|lia].
              apply (split_count _ [] c). { intros ? []. } intros x Hx. apply negb_false_iff. auto.
           ++ intros x [<-|[]]. now rewrite E2.
           ++ intros x Hx. apply negb_true_iff. apply (le_trans lt HW) with (y := z); auto. apply HSb; auto. left; auto.
           ++ intros x Hx. apply negb_true_iff. auto.
        -- rewrite (part_at_all _ _ _ _ Huw (sorted_mono_lt lt HW v b1 HSb1)).
           subst l b. replace (a ++ (b1 ++ z :: b2) ++ c) with (a ++ b1 ++ (z :: b2 ++ c)) by (rewrite <- !app_assoc; reflexivity).
           unfold below. rewrite !filter_app, !app_length. rewrite (filter_all _ a); auto.
           change (fun x => comp (proj x) (proj v)) with (fun x => lt x v).
           assert (length (filter (fun x => lt x v) (z :: b2 ++ c)) = 0) as ->; [|lia].
           apply (split_count _ [] (z :: b2 ++ c)). { intros ? []. }
           intros x [<-|Hx]; auto. apply in_app_or in Hx as [Hx|Hx]; auto.
           apply (le_trans lt HW) with (y := z); auto.
Qed.
End EqualRange.

Section Its.
Context {A T : Type} (comp : T -> T -> bool) (proj : A -> T).
Hypothesis HC : strict_weak_order comp.
Notation lt := (by_proj comp proj).
Let HW : strict_weak_order lt := swo_by_proj _ _ comp proj HC.
Notation ltp := (by_proj comp (@indirect_proj A T proj)).
Variable inner : (T -> T -> bool) -> (nat * A -> T) -> range_prog (nat * A).
Hypothesis Hinner : forall c p, strict_weak_order c -> sorts (by_proj c p) (inner c p).

Lemma sorted_map_snd : forall its, sorted ltp its <-> sorted lt (map snd its).
Proof.
  intros its. split; intros H i j x y Hij Hi Hj.
  - rewrite nth_error_map in Hi, Hj. destruct (nth_error its i) as [a|] eqn:Ei; inversion Hi; subst.
    destruct (nth_error its j) as [b|] eqn:Ej; inversion Hj; subst. exact (H i j a b Hij Ei Ej).
  - apply (H i j (snd x) (snd y) Hij); rewrite nth_error_map; [now rewrite Hi|now rewrite Hj].
Qed.
Lemma below_map_snd : forall p v its, below ltp (p, v) its = below lt v (map snd its).
Proof. intros p v its. unfold below. induction its as [|[q w] its IH]; simpl; auto. unfold by_proj, indirect_proj; simpl. destruct (comp (proj w) (proj v)); simpl; auto. Qed.
Lemma upto_map_snd : forall p v its, upto ltp (p, v) its = upto lt v (map snd its).
Proof. intros p v its. unfold upto. induction its as [|[q w] its IH]; simpl; auto. unfold by_proj, indirect_proj; simpl. destruct (negb (comp (proj v) (proj w))); simpl; auto. Qed.

Lemma sorted_its_wp : forall pre xs post (Q : list (nat * A) -> mem A -> Prop),
  (forall its, Permutation (tag (length pre) xs) its -> sorted lt (map snd its) -> Permutation xs (map snd its) ->
     Q its (pre ++ map Val xs ++ post)) ->
  wp (sorted_its comp proj inner (length pre) (length pre + length xs)) Q (pre ++ map Val xs ++ post).
Proof.
  intros pre xs post Q HQ. unfold sorted_its. apply wp_bind. apply iterators_wp.
  eapply wp_sort_vector with (R := is_sorting_of ltp).
  - apply Hinner; auto.
  - intros its [HP HS]. apply HQ; auto.
    + now apply sorted_map_snd.
    + rewrite <- (tag_snd xs (length pre)) at 1. now apply Permutation_map.
Qed.

Lemma bounds_wp : forall its x (Q : nat * nat -> mem A -> Prop) m, sorted lt (map snd its) ->
  Q (below lt x (map snd its), upto lt x (map snd its)) m ->
  wp (on_vector its (equal_range comp (@indirect_proj A T proj) 0 (length its) (proj x))) Q m.
Proof.
  intros its x Q m HS HQ. apply wp_on_vector. change (proj x) with (@indirect_proj A T proj (0, x)).
  apply equal_range_wp; auto. { now apply sorted_map_snd. }
  rewrite below_map_snd, upto_map_snd. exact HQ.
Qed.

(** ** ham *)
Lemma hamming_app : forall (xs ys xs' ys' : list A), length xs = length ys ->
  hamming lt (xs ++ xs') (ys ++ ys') = hamming lt xs ys + hamming lt xs' ys'.
Proof.
  intros xs ys xs' ys' HL. unfold hamming. rewrite <- app_length, <- filter_app. f_equal. f_equal.
  revert ys HL. induction xs as [|x xs IH]; intros [|y ys] HL; simpl in *; try lia; auto. f_equal. apply IH. lia.
Qed.
Lemma hamming_equiv : forall xs ys zs, length ys = length zs ->
  (forall i y z, nth_error ys i = Some y -> nth_error zs i = Some z -> equivalent lt y z = true) ->
  hamming lt xs ys = hamming lt xs zs.
Proof.
  unfold hamming. induction xs as [|x xs IH]; intros [|y ys] [|z zs] HL H; simpl in *; try lia; auto.
  assert (equivalent lt x y = equivalent lt x z) as ->.
  { specialize (H 0 y z eq_refl eq_refl).
    destruct (equivalent lt x y) eqn:E1, (equivalent lt x z) eqn:E2; auto.
    - rewrite (eqv_trans lt HW x y z E1 H) in E2. discriminate.
    - rewrite (eqv_sym lt) in H. rewrite (eqv_trans lt HW x z y E2 H) in E1. discriminate. }
  assert (length (filter (fun '(x0, y0) => negb (equivalent lt x0 y0)) (combine xs ys)) =
          length (filter (fun '(x0, y0) => negb (equivalent lt x0 y0)) (combine xs zs))) as E.
  { apply IH; [lia|]. intros i y' z' Hy Hz. apply (H (S i)); auto. }
  destruct (negb (equivalent lt x z)); simpl; auto.
Qed.
Lemma hamming_le : forall xs ys : list A, hamming lt xs ys <= length xs.
Proof.
  intros xs ys. unfold hamming. etransitivity; [apply filter_length_le|]. rewrite combine_length. lia.
Qed.
Lemma hamming_refl : forall xs : list A, hamming lt xs xs = 0.
Proof.
  unfold hamming. induction xs as [|x xs IH]; simpl; auto. rewrite (eqv_refl lt HW). exact IH.
Qed.

Lemma probe_ham_wp : forall pre xs post (Q : nat -> mem A -> Prop),
  (forall r, (forall ys, is_sorting_of lt xs ys -> r = hamming lt xs ys) -> r <= length xs -> Q r (pre ++ map Val xs ++ post)) ->
  wp (probe_ham comp proj inner (length pre) (length pre + length xs)) Q (pre ++ map Val xs ++ post).
Proof.
  intros pre xs post Q HQ. unfold probe_ham.
  replace (length pre + length xs - length pre) with (length xs) by lia.
  destruct (Nat.ltb_spec (length xs) 2).
  { apply wp_ret. apply HQ; [|lia]. intros ys [HP _]. pose proof (Permutation_length HP).
    destruct xs as [|a [|b xs]]; simpl in *; try lia; auto.
    apply Permutation_length_1_inv in HP. subst ys. symmetry. apply hamming_refl. }
  apply wp_bind. apply sorted_its_wp. intros its HPt HS HP.
  assert (forall r, r = hamming lt xs (map snd its) -> Q r (pre ++ map Val xs ++ post)) as HQ'.
  { intros r ->. apply HQ; [|apply hamming_le]. intros ys [HP' HS'].
    apply hamming_equiv. { rewrite <- (Permutation_length HP), <- (Permutation_length HP'). auto. }
    eapply sortings_equiv; eauto. etransitivity; [symmetry; eauto|]. auto. }
  clear HQ.
  assert (length its = length xs) as HLi by (rewrite <- (map_length snd its), <- (Permutation_length HP); auto).
  apply wp_loop' with (mu := fun '(rest, first, count) => length rest)
    (I := fun '(rest, first, count) m => exists x1 x2 i1, xs = x1 ++ x2 /\ its = i1 ++ rest /\ length x1 = length i1 /\
       first = length pre + length x1 /\ count = hamming lt x1 (map snd i1) /\ m = pre ++ map Val xs ++ post).
  - exists [], xs, []. cj; auto; simpl; lia.
  - lia.
  - intros [[rest first] count] m (x1 & x2 & i1 & Ex & Ei & HL & -> & -> & ->).
    destruct rest as [|it rest].
    + apply wp_ret. apply HQ'. rewrite app_nil_r in Ei. subst i1.
      assert (x2 = []) as -> by (subst xs; rewrite app_length in HLi; destruct x2; auto; simpl in HLi; lia).
      rewrite app_nil_r in Ex. now subst.
    + destruct x2 as [|x x2]. { subst xs its. rewrite app_nil_r, app_length in HLi. simpl in HLi. lia. }
      apply wp_bind. eapply wp_get_list. { subst xs. apply nth_mid. }
      apply wp_ret. split; [|simpl; lia]. exists (x1 ++ [x]), x2, (i1 ++ [it]). cj; auto; try (lens; fail).
      * subst xs. now rewrite <- app_assoc.
      * subst its. now rewrite <- app_assoc.
      * rewrite map_app. rewrite hamming_app by (now rewrite map_length).
        set (h := hamming lt x1 (map snd i1)). unfold hamming. simpl. unfold equivalent, by_proj.
        destruct (comp (proj x) (proj (snd it))), (comp (proj (snd it)) (proj x)); simpl; lia.
Qed.

(** ** max *)
Definition disp (ys : list A) (i : nat) (x : A) : nat :=
  if i <? below lt x ys then below lt x ys - i else if upto lt x ys <=? i then i - upto lt x ys + 1 else 0.

Lemma disp_nearest : forall xs ys i x, sorted lt ys -> Permutation xs ys -> nth_error xs i = Some x ->
  (exists j y, nth_error ys j = Some y /\ equivalent lt x y = true /\ distance i j <= disp ys i x) /\
  (forall j y, nth_error ys j = Some y -> equivalent lt x y = true -> disp ys i x <= distance i j).
Proof.
  intros xs ys i x HS HP Hi.
  assert (forall j y, nth_error ys j = Some y -> (equivalent lt x y = true <-> below lt x ys <= j < upto lt x ys)) as K.
  { intros j y Hj. pose proof (rank_upto lt HW x ys j y HS Hj) as HU. pose proof (rank_below lt HW x ys j y HS Hj) as HB.
    unfold equivalent. destruct (lt y x).
    - rewrite andb_false_r. split; [discriminate|]. intros [H _]. pose proof (proj1 HB eq_refl). lia.
    - rewrite andb_true_r. destruct (lt x y).
      + split; [discriminate|]. intros [_ H]. discriminate (proj2 HU H).
      + split; auto. intros _. split; [|now apply HU]. destruct (Nat.le_gt_cases (below lt x ys) j); auto.
        discriminate (proj2 HB H). }
  assert (below lt x ys < upto lt x ys) as Hlt.
  { assert (In x ys) as Hin by (eapply Permutation_in; eauto using nth_error_In).
    apply In_nth_error in Hin as (j & Hj). specialize (K j x Hj). rewrite (eqv_refl lt HW) in K. destruct K as [K _].
    specialize (K eq_refl). lia. }
  pose proof (upto_le lt x ys) as Hle. pose proof (nth_lt _ _ _ Hi) as HLi. rewrite (Permutation_length HP) in HLi.
  unfold disp, distance. split.
  - destruct (Nat.ltb_spec i (below lt x ys)).
    + destruct (nth_some _ ys (below lt x ys)) as (y & Hy); [lia|]. exists (below lt x ys), y. cj; auto; [|lia]. apply (K _ _ Hy). lia.
    + destruct (Nat.leb_spec (upto lt x ys) i).
      * destruct (nth_some _ ys (upto lt x ys - 1)) as (y & Hy); [lia|]. exists (upto lt x ys - 1), y. cj; auto; [|lia]. apply (K _ _ Hy). lia.
      * destruct (nth_some _ ys i) as (y & Hy); [lia|]. exists i, y. cj; auto; [|lia]. apply (K _ _ Hy). lia.
  - intros j y Hj Hxy. apply (K _ _ Hj) in Hxy.
    destruct (Nat.ltb_spec i (below lt x ys)); [lia|]. destruct (Nat.leb_spec (upto lt x ys) i); lia.
Qed.

Lemma max_displacement_equiv : forall xs ys zs d, length ys = length zs ->
  (forall i y z, nth_error ys i = Some y -> nth_error zs i = Some z -> equivalent lt y z = true) ->
  max_displacement lt xs ys d -> max_displacement lt xs zs d.
Proof.
  intros xs ys zs d HL He [H1 H2]. split.
  - intros i x Hi. destruct (H1 i x Hi) as (j & y & Hj & Hy & Hd). pose proof (nth_lt _ _ _ Hj).
    destruct (nth_some _ zs j) as (z & Hz); [lia|]. exists j, z. cj; auto. eapply (eqv_trans lt HW); eauto.
  - destruct H2 as [H2|(i & x & Hi & H2)]; auto. right. exists i, x. split; auto. intros j z Hj Hz.
    pose proof (nth_lt _ _ _ Hj). destruct (nth_some _ ys j) as (y & Hy); [lia|]. apply (H2 j y); auto.
    specialize (He j y z Hy Hj). rewrite (eqv_sym lt) in He. eapply (eqv_trans lt HW); eauto.
Qed.

Lemma probe_max_wp : forall pre xs post (Q : nat -> mem A -> Prop),
  (forall r, (forall ys, is_sorting_of lt xs ys -> max_displacement lt xs ys r) -> r <= length xs - 1 -> Q r (pre ++ map Val xs ++ post)) ->
  wp (probe_max comp proj inner (length pre) (length pre + length xs)) Q (pre ++ map Val xs ++ post).
Proof.
  intros pre xs post Q HQ. unfold probe_max.
  replace (length pre + length xs - length pre) with (length xs) by lia.
  destruct (Nat.ltb_spec (length xs) 2).
  { apply wp_ret. apply HQ; [|lia]. intros ys [HP _]. pose proof (Permutation_length HP). split; [|left; auto].
    intros i x Hi. destruct xs as [|a [|b xs]]; simpl in *; try lia; [destruct i; discriminate|].
    apply Permutation_length_1_inv in HP. subst ys. destruct i as [|[|i]]; try discriminate. inversion Hi; subst.
    exists 0, x. cj; auto. apply (eqv_refl lt HW). }
  apply wp_bind. apply sorted_its_wp. intros its HPt HS HP.
  set (ys := map snd its) in *.
  apply wp_loop' with (mu := fun '(it, it_pos, d) => length xs - it_pos)
    (I := fun '(it, it_pos, d) m => it = length pre + it_pos /\ it_pos <= length xs /\
       (forall i x, i < it_pos -> nth_error xs i = Some x -> disp ys i x <= d) /\
       (d = 0 \/ exists i x, nth_error xs i = Some x /\ d <= disp ys i x) /\ m = pre ++ map Val xs ++ post).
  - cj; auto; try lia; intros; lia.
  - lia.
  - intros [[it it_pos] d] m (-> & Hp & Hall & Hex & ->).
    destruct (Nat.eqb_spec (length pre + it_pos) (length pre + length xs)) as [E|E].
    + apply wp_ret. assert (it_pos = length xs) as -> by lia.
      assert (max_displacement lt xs ys d) as HD.
      { split.
        - intros i x Hi. destruct (disp_nearest xs ys i x HS HP Hi) as [(j & y & Hj & Hy & Hd) _]. exists j, y. cj; auto.
          specialize (Hall i x (nth_lt _ _ _ Hi) Hi). lia.
        - destruct Hex as [->|(i & x & Hi & Hd)]; auto. right. exists i, x. split; auto. intros j y Hj Hy.
          destruct (disp_nearest xs ys i x HS HP Hi) as [_ HN]. specialize (HN j y Hj Hy). lia. }
      apply HQ.
      * intros zs [HP' HS']. apply (max_displacement_equiv xs ys); auto.
        -- rewrite <- (Permutation_length HP), <- (Permutation_length HP'). auto.
        -- eapply sortings_equiv; eauto. etransitivity; [symmetry; eauto|]. auto.
      * destruct Hex as [->|(i & x & Hi & Hd)]; [lia|].
        destruct (disp_nearest xs ys i x HS HP Hi) as [(j & y & Hj & Hy & Hd') HN]. specialize (HN j y Hj Hy).
        pose proof (nth_lt _ _ _ Hi). pose proof (nth_lt _ _ _ Hj) as HLj. rewrite <- (Permutation_length HP) in HLj.
        unfold distance in HN. lia.
    + destruct (nth_some _ xs it_pos) as (x & Hx); [lia|]. apply wp_bind. eapply wp_get_list; eauto.
      apply wp_bind. apply bounds_wp; auto. fold ys. apply wp_ret. split; [|lia].
      assert ((if it_pos <? below lt x ys then Nat.max (below lt x ys - it_pos) d
               else if upto lt x ys <=? it_pos then Nat.max (it_pos - upto lt x ys + 1) d else d) = Nat.max (disp ys it_pos x) d) as ->.
      { unfold disp. destruct (it_pos <? below lt x ys); auto. destruct (upto lt x ys <=? it_pos); auto. }
      cj; auto; try lia.
      * intros i y Hi Hy. destruct (Nat.eq_dec i it_pos) as [->|].
        -- rewrite Hx in Hy. inversion Hy; subst. lia.
        -- specialize (Hall i y ltac:(lia) Hy). lia.
      * destruct (Nat.max_spec (disp ys it_pos x) d) as [[_ ->]|[_ ->]]; auto. right. eauto.
Qed.
End Its.
