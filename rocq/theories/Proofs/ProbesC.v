(** Proofs about the probes: inv. *)
From Coq Require Import List Arith Lia Permutation Bool ZArith Zify ZifyNat.
From Verif Require Import Spec.Order Spec.Probes Lang.Mem Spec.Sorts Proofs.Wp Proofs.OrderLib Proofs.Search Model.Search
  Model.Rotate Proofs.Rotate Proofs.Moves Model.Indirect Proofs.Indirect Model.Probes Proofs.ProbesA.
Import ListNotations.
Ltac Zify.zify_post_hook ::= Z.to_euclidean_division_equations.

Lemma skipn_nth : forall X (l : list X) i x, nth_error l i = Some x -> skipn i l = x :: skipn (S i) l.
Proof.
  induction l as [|a l IH]; intros [|i] x H; simpl in *; try discriminate.
  - now inversion H.
  - now apply IH.
Qed.

Section Count.
Context {E : Type} (lt : E -> E -> bool).

Definition below (x : E) (r : list E) : nat := length (filter (fun y => lt y x) r).
Fixpoint cross (l r : list E) : nat := match l with [] => 0 | x :: l => below x r + cross l r end.
Fixpoint ninv (l : list E) : nat := match l with [] => 0 | x :: l => below x l + ninv l end.

Lemma below_app : forall x l r, below x (l ++ r) = below x l + below x r.
Proof. intros. unfold below. now rewrite filter_app, app_length. Qed.
Lemma below_perm : forall x l r, Permutation l r -> below x l = below x r.
Proof.
  intros x l r H. induction H; unfold below in *; simpl; auto.
  - destruct (lt x0 x); simpl; auto.
  - destruct (lt y x), (lt x0 x); simpl; auto.
  - congruence.
Qed.
Lemma cross_perm_r : forall l r r', Permutation r r' -> cross l r = cross l r'.
Proof. induction l; intros; simpl; auto. erewrite below_perm, IHl; eauto. Qed.
Lemma cross_perm_l : forall l l' r, Permutation l l' -> cross l r = cross l' r.
Proof. induction 1; simpl; lia. Qed.
Lemma cross_nil_r : forall l, cross l [] = 0.
Proof. induction l; simpl; auto. Qed.
Lemma cross_cons_r : forall l y r, cross l (y :: r) = length (filter (fun x => lt y x) l) + cross l r.
Proof.
  induction l as [|x l IH]; intros y r; simpl; auto. rewrite IH. unfold below. simpl. destruct (lt y x); simpl; lia.
Qed.
Lemma ninv_app : forall l r, ninv (l ++ r) = ninv l + ninv r + cross l r.
Proof. induction l as [|x l IH]; intros r; simpl; auto. rewrite below_app, IH. lia. Qed.
Lemma below_le : forall x l, below x l <= length l.
Proof. intros. apply filter_length_le. Qed.
Lemma ninv_bound : forall l, 2 * ninv l <= length l * (length l - 1).
Proof.
  induction l as [|x l IH]; [simpl; lia|]. cbn [ninv length]. pose proof (below_le x l). nia.
Qed.
Lemma below_0 : forall x l, (forall y, In y l -> lt y x = false) -> below x l = 0.
Proof.
  intros x l H. unfold below. induction l as [|y l IH]; simpl; auto.
  rewrite (H y) by (left; auto). apply IH. intros; apply H; right; auto.
Qed.
Lemma ninv_sorted : forall l, sorted lt l -> ninv l = 0.
Proof.
  induction l as [|x l IH]; intros H; simpl; auto. apply sorted_cons in H as [H1 H2].
  rewrite below_0, IH; auto. 
Qed.
Lemma filter_all : forall (f : E -> bool) l, (forall x, In x l -> f x = true) -> length (filter f l) = length l.
Proof.
  induction l as [|a l IH]; intros H; simpl; auto. rewrite (H a) by (left; auto). simpl. f_equal. apply IH. intros; apply H; right; auto.
Qed.

(** The same number, on positions. *)
Lemma below_positions : forall xs x i, nth_error xs i = Some x -> forall b,
  length (filter (fun '(i', j) => (i' <? j) && less_pos lt xs j i') (map (fun j => (i, j)) (seq b (length xs - b)))) =
  below x (skipn (Nat.max b (S i)) xs).
Proof.
  intros xs x i Hx b. remember (length xs - b) as k eqn:Ek. revert b Ek.
  induction k as [|k IH]; intros b Ek; simpl.
  - rewrite skipn_all2; auto. lia.
  - assert (b < length xs) as Hb by lia. destruct (nth_some _ xs b Hb) as (y & Hy).
    rewrite (less_pos_some lt xs i b x y Hx Hy).
    assert (length (filter (fun '(i', j) => (i' <? j) && less_pos lt xs j i') (map (fun j => (i, j)) (seq (S b) k))) =
       below x (skipn (Nat.max (S b) (S i)) xs)) as IH' by (apply IH; lia).
    destruct (Nat.ltb_spec i b).
    + replace (Nat.max b (S i)) with b by lia. replace (Nat.max (S b) (S i)) with (S b) in IH' by lia.
      assert (skipn b xs = y :: skipn (S b) xs) as ->.
      { now apply skipn_nth. }
      unfold below in *. simpl. destruct (lt y x); simpl; auto.
    + simpl. rewrite IH'. f_equal. f_equal. lia.
Qed.

Lemma ninv_pairs : forall xs, length (inversion_pairs lt xs) = ninv xs.
Proof.
  intros xs. unfold inversion_pairs.
  assert (forall n, n <= length xs ->
    length (filter (fun '(i, j) => (i <? j) && less_pos lt xs j i) (list_prod (seq (length xs - n) n) (seq 0 (length xs)))) =
    ninv (skipn (length xs - n) xs)) as K.
  { induction n as [|n IH]; intros Hn.
    - simpl. rewrite skipn_all2 by lia. reflexivity.
    - specialize (IH ltac:(lia)). simpl seq. set (i := length xs - S n) in *.
      replace (length xs - n) with (S i) in IH by lia. simpl list_prod. rewrite filter_app, app_length, IH.
      destruct (nth_some _ xs i) as (x & Hx); [lia|].
      pose proof (below_positions xs x i Hx 0) as HB. rewrite Nat.sub_0_r in HB. rewrite HB.
      assert (skipn i xs = x :: skipn (S i) xs) as ->.
      { now apply skipn_nth. }
      simpl. f_equal. }
  specialize (K (length xs) (Nat.le_refl _)). rewrite Nat.sub_diag in K. exact K.
Qed.
End Count.

Section Inv.
Context {E T : Type} (comp : T -> T -> bool) (proj : E -> T).
Hypothesis HC : strict_weak_order comp.
Notation lt := (by_proj comp proj).
Let HW : strict_weak_order lt := swo_by_proj _ _ comp proj HC.

Lemma inversions_shrink_wp : forall l y r pre post f mi la (Q : nat -> mem E -> Prop),
  f = length pre -> mi = f + length l -> la = mi + S (length r) ->
  (forall sk l', l = sk ++ l' -> (forall z, In z sk -> lt z y = true) -> Q (f + length sk) (pre ++ map Val (l ++ y :: r) ++ post)) ->
  wp (inversions_shrink comp proj f mi la) Q (pre ++ map Val (l ++ y :: r) ++ post).
Proof.
  intros l y r pre post f mi la Q -> -> -> HQ. unfold inversions_shrink.
  apply wp_loop' with (mu := fun first => length pre + length l + S (length r) - first)
    (I := fun first m => exists sk l', l = sk ++ l' /\ (forall z, In z sk -> lt z y = true) /\ first = length pre + length sk /\
       m = pre ++ map Val (l ++ y :: r) ++ post).
  - exists [], l. cj; simpl; auto; try lia; tauto.
  - lia.
  - intros first m (sk & l' & El & Hsk & -> & ->).
    assert (exists z r', nth_error (l ++ y :: r) (length sk) = Some z /\ l' ++ y :: r = z :: r') as (z & r' & Hz & Er).
    { subst l. rewrite <- app_assoc. rewrite nth_error_app2, Nat.sub_diag by lia.
      destruct (l' ++ y :: r) as [|z r'] eqn:E'; [destruct l'; discriminate|]. exists z, r'. split; reflexivity. }
    apply wp_bind. eapply wp_get_list; [exact Hz|]. apply wp_bind. eapply wp_get_list; [apply nth_mid|].
    change (comp (proj z) (proj y)) with (lt z y). destruct (lt z y) eqn:Elt; apply wp_ret.
    + destruct l' as [|z' l'].
      * simpl in Er. inversion Er; subst z. rewrite (lt_irrefl lt HW) in Elt. discriminate.
      * simpl in Er. inversion Er; subst z'. split; [|subst l; lens]. exists (sk ++ [z]), l'. cj; auto.
        -- subst l. now rewrite <- app_assoc.
        -- intros w Hw. apply in_app_or in Hw as [Hw|[<-|[]]]; auto.
        -- lens.
    + eapply HQ; eauto.
Qed.

Lemma inversions_loop_wp : forall l r pre mid D post f mi la ca (Q : nat * nat -> mem E -> Prop),
  sorted lt l -> sorted lt r -> Forall live D -> length D = length l + length r ->
  f = length pre -> mi = f + length l -> la = mi + length r -> ca = la + length mid ->
  (forall out rest G D', merge lt l r = out ++ rest -> (exists l' , r = l' ++ rest /\ length out = length l + length l') ->
     Forall live G -> length G = length out -> Forall live D' -> length D' = length rest ->
     Q (f + length out, cross lt l r) (pre ++ G ++ map Val rest ++ mid ++ map Val out ++ D' ++ post)) ->
  wp (inversions_loop comp proj f mi la ca) Q (pre ++ map Val (l ++ r) ++ mid ++ D ++ post).
Proof.
  intros l r pre mid D post f mi la ca Q HSl HSr HD HLD -> -> -> -> HQ. unfold inversions_loop.
  apply wp_loop' with (mu := fun '(first1, first2, result, inversions) =>
      (length pre + length l - first1) + (length pre + length l + length r - first2))
    (I := fun '(first1, first2, result, inversions) m => exists a r1 b out G1 G2 D',
       r = r1 ++ b /\ length l = length G1 + length a /\ length r1 = length G2 /\
       Forall live G1 /\ Forall live G2 /\ Forall live D' /\ length out = length G1 + length G2 /\
       length D' = length a + length b /\ sorted lt a /\ sorted lt b /\
       merge lt l r = out ++ merge lt a b /\ cross lt l r = inversions + cross lt a b /\
       first1 = length pre + length G1 /\ first2 = length pre + length l + length r1 /\
       result = length pre + length l + length r + length mid + length out /\
       m = pre ++ G1 ++ map Val a ++ G2 ++ map Val b ++ mid ++ map Val out ++ D' ++ post).
  - exists l, [], r, [], [], [], D. cj; simpl; auto; try lia. solve_app.
  - lia.
  - intros [[[first1 first2] result] inversions] m
      (a & r1 & b & out & G1 & G2 & D' & Er & HLl & HLr & HG1 & HG2 & HD' & HLo & HLD' & HSa & HSb & Hm & Hx & -> & -> & -> & ->).
    destruct (Nat.eqb_spec (length pre + length G1) (length pre + length l)) as [E1|E1].
    + assert (a = []) as -> by (destruct a; [auto|simpl in HLl; lia]).
      rewrite merge_nil_l in Hm. simpl in Hx. rewrite Nat.add_0_r in Hx. subst inversions.
      replace (length pre + length l + length r1) with (length pre + length out) by (simpl in HLl; lia).
      reshape (pre ++ (G1 ++ G2) ++ map Val b ++ mid ++ map Val out ++ D' ++ post). apply wp_ret.
      apply HQ; auto.
      * exists r1. split; auto. lia.
      * now apply Forall_app.
      * lens.
    + destruct a as [|x a]; [simpl in HLl; lia|].
      destruct (Nat.eqb_spec (length pre + length l + length r1) (length pre + length l + length r)) as [E2|E2].
      * assert (b = []) as -> by (subst r; destruct b; [auto|lens]).
        rewrite app_nil_r in Er. rewrite cross_nil_r, Nat.add_0_r in Hx. subst inversions.
        rewrite merge_nil_r in Hm. simpl length in HLl, HLD'.
        reshape ((pre ++ G1) ++ map Val (x :: a) ++ (G2 ++ mid ++ map Val out) ++ D' ++ post).
        apply wp_bind. apply move_range_to_right_wp; auto; rewrite ?app_length, ?map_length; simpl length; try (subst r1; lia).
        apply wp_ret. replace (length pre + length l + length r1) with (length pre + length (out ++ x :: a)) by lens.
        replace ((pre ++ G1) ++ repeat Moved (S (length a)) ++ (G2 ++ mid ++ map Val out) ++ map Val (x :: a) ++ post)
          with (pre ++ (G1 ++ repeat Moved (S (length a)) ++ G2) ++ map Val [] ++ mid ++ map Val (out ++ x :: a) ++ [] ++ post) by solve_app.
        apply HQ; auto.
        -- rewrite Hm. now rewrite app_nil_r.
        -- exists r. rewrite app_nil_r. split; auto. subst r1. lens.
        -- apply Forall_app. split; auto. apply Forall_app. split; auto. apply live_moved.
        -- lens.
      * destruct b as [|y b]. { subst r. rewrite app_nil_r in E2. lia. }
        simpl length in HLl, HLD'. destruct D' as [|c D']; [simpl in HLD'; lia|]. inversion HD' as [|c0 D0 Hc HD0]; subst c0 D0.
        assert (length r = length r1 + S (length b)) as HLrr by (subst r; lens).
        apply wp_bind. reshape ((pre ++ G1 ++ map Val (x :: a) ++ G2) ++ Val y :: map Val b ++ mid ++ map Val out ++ c :: D' ++ post).
        apply wp_get_at; [lens|]. apply wp_bind.
        reshape ((pre ++ G1) ++ Val x :: map Val a ++ G2 ++ map Val (y :: b) ++ mid ++ map Val out ++ c :: D' ++ post).
        apply wp_get_at; [lens|].
        change (comp (proj y) (proj x)) with (lt y x). rewrite merge_cons in Hm. destruct (lt y x) eqn:Elt; apply wp_bind.
        -- reshape ((pre ++ G1 ++ map Val (x :: a) ++ G2) ++ Val y :: (map Val b ++ mid ++ map Val out) ++ c :: D' ++ post).
           apply wp_move_to_right; auto; [lens|lens|]. apply wp_ret. split; [|simpl; lia].
           exists (x :: a), (r1 ++ [y]), b, (out ++ [y]), G1, (G2 ++ [Moved]), D'. cj; auto; try (lens; fail).
           ++ subst r. now rewrite <- app_assoc.
           ++ apply Forall_app. split; auto. constructor; auto. discriminate.
           ++ apply sorted_cons in HSb. tauto.
           ++ rewrite Hm. now rewrite <- app_assoc.
           ++ rewrite Hx, cross_cons_r. rewrite filter_all; [simpl length; lia|].
              intros z [<-|Hz]; auto. apply sorted_cons in HSa as [HSa _].
              apply (lt_le_trans lt HW) with (y := x); auto.
           ++ solve_app.
        -- reshape ((pre ++ G1) ++ Val x :: (map Val a ++ G2 ++ map Val (y :: b) ++ mid ++ map Val out) ++ c :: D' ++ post).
           apply wp_move_to_right; auto; [lens|lens|]. apply wp_ret. split; [|simpl; lia].
           exists a, r1, (y :: b), (out ++ [x]), (G1 ++ [Moved]), G2, D'. cj; auto; try (lens; fail).
           ++ apply Forall_app. split; auto. constructor; auto. discriminate.
           ++ apply sorted_cons in HSa. tauto.
           ++ rewrite Hm. now rewrite <- app_assoc.
           ++ rewrite Hx. cbn [cross]. rewrite below_0; [lia|].
              intros z [<-|Hz]; auto. apply sorted_cons in HSb as [HSb _].
              apply (le_trans lt HW) with (y := y); auto.
           ++ solve_app.
Qed.

Lemma count_inversions_merge_wp : forall l y r pre mid D post f mi la ca (Q : nat -> mem E -> Prop),
  sorted lt l -> sorted lt (y :: r) -> Forall live D -> length D >= length l + S (length r) ->
  f = length pre -> mi = f + length l -> la = mi + S (length r) -> ca = la + length mid ->
  (forall D', Forall live D' -> length D' = length D ->
     Q (cross lt l (y :: r)) (pre ++ map Val (merge lt l (y :: r)) ++ mid ++ D' ++ post)) ->
  wp (count_inversions_merge comp proj f mi la ca) Q (pre ++ map Val (l ++ y :: r) ++ mid ++ D ++ post).
Proof.
  intros l y r pre mid D post f mi la ca Q HSl HSr HD HLD -> -> -> -> HQ. unfold count_inversions_merge.
  apply wp_bind. apply inversions_shrink_wp; auto. intros sk l' El Hsk.
  assert (cross lt l (y :: r) = cross lt l' (y :: r)) as Hcross.
  { subst l. clear - Hsk HSr HW. induction sk as [|z sk IH]; auto. simpl. rewrite IH by (intros; apply Hsk; right; auto).
    rewrite below_0; auto. intros w [<-|Hw].
    - apply (lt_asym lt HW). apply Hsk. left; auto.
    - apply sorted_cons in HSr as [HSr _]. apply (le_trans lt HW) with (y := y); [|now apply HSr].
      apply (lt_asym lt HW). apply Hsk. left; auto. }
  assert (merge lt l (y :: r) = sk ++ merge lt l' (y :: r)) as Hmerge.
  { subst l. clear - Hsk HW. induction sk as [|z sk IH]; auto. simpl app. rewrite merge_cons.
    rewrite (lt_asym lt HW z y) by (apply Hsk; left; auto). f_equal. apply IH. intros; apply Hsk; right; auto. }
  assert (exists D1 D2, D = D1 ++ D2 /\ length D1 = length l' + S (length r)) as (D1 & D2 & -> & HL1).
  { exists (firstn (length l' + S (length r)) D), (skipn (length l' + S (length r)) D). split; [now rewrite firstn_skipn|].
    rewrite firstn_length. subst l. rewrite app_length in HLD. lia. }
  apply Forall_app in HD as [HD1 HD2].
  apply wp_bind. reshape ((pre ++ map Val sk) ++ map Val (l' ++ y :: r) ++ mid ++ D1 ++ D2 ++ post). { subst l. solve_app. }
  subst l. rewrite app_length.
  apply inversions_loop_wp; auto; try (lens; fail).
  { now apply sorted_app in HSl. }
  intros out rest G D' Hm (r1 & Er & HLo) HG HLG HD' HLD'. apply wp_bind.
  reshape ((pre ++ map Val sk) ++ G ++ (map Val rest ++ mid) ++ map Val out ++ D' ++ D2 ++ post).
  assert (length r1 + length rest = S (length r)) as HLr.
  { apply (f_equal (@length E)) in Er. rewrite app_length in Er. simpl in Er. lia. }
  apply move_range_to_left_wp; auto; try (lens; fail).
  apply wp_ret. rewrite <- Hcross.
  replace ((pre ++ map Val sk) ++ map Val out ++ (map Val rest ++ mid) ++ repeat Moved (length out) ++ D' ++ D2 ++ post)
    with (pre ++ map Val (merge lt (sk ++ l') (y :: r)) ++ mid ++ (repeat Moved (length out) ++ D' ++ D2) ++ post).
  2:{ rewrite Hmerge, Hm. solve_app. }
  apply HQ.
  - apply Forall_app. split; [apply live_moved|]. apply Forall_app. auto.
  - lens.
Qed.

Lemma count_inversions_wp : forall fuel xs pre mid D post f l ca (Q : nat -> mem E -> Prop),
  length xs < fuel -> Forall live D -> length D >= length xs ->
  f = length pre -> l = f + length xs -> ca = l + length mid ->
  (forall ys D' mid', Permutation xs ys -> sorted lt ys -> Forall live D' -> length D' = length D -> mid' = mid ->
     Q (ninv lt xs) (pre ++ map Val ys ++ mid' ++ D' ++ post)) ->
  wp (count_inversions comp proj fuel f l ca) Q (pre ++ map Val xs ++ mid ++ D ++ post).
Proof.
  induction fuel as [|fuel IH]; intros xs pre mid D post f l ca Q HF HD HLD -> -> -> HQ; [lia|].
  cbn [count_inversions]. replace (length pre + length xs - length pre) with (length xs) by lia.
  destruct (Nat.ltb_spec (length xs) 2).
  { apply wp_ret. replace 0 with (ninv lt xs). apply HQ; auto.
    - destruct xs as [|a [|b xs]]; [apply sorted_nil|apply sorted_one|simpl in *; lia].
    - destruct xs as [|a [|b xs]]; auto. simpl in *; lia. }
  set (k := length xs / 2). assert (1 <= k < length xs) as Hk by (unfold k; lia).
  rewrite <- (firstn_skipn k xs). set (l := firstn k xs). set (r := skipn k xs).
  assert (length l = k) as HLl by (unfold l; rewrite firstn_length; lia).
  assert (length r = length xs - k) as HLr by (unfold r; rewrite skipn_length; lia).
  apply wp_bind. reshape (pre ++ map Val l ++ (map Val r ++ mid) ++ D ++ post).
  apply IH; auto; try (lens; fail).
  intros l2 D1 mid1 HP1 HS1 HD1 HLD1 ->. pose proof (Permutation_length HP1) as HLl2.
  apply wp_bind. reshape ((pre ++ map Val l2) ++ map Val r ++ mid ++ D1 ++ post).
  apply IH; auto; try (lens; fail).
  intros r2 D2 mid2 HP2 HS2 HD2 HLD2 ->. pose proof (Permutation_length HP2) as HLr2.
  destruct r2 as [|y r2]; [simpl in HLr2; lia|].
  apply wp_bind. reshape (pre ++ map Val (l2 ++ y :: r2) ++ mid ++ D2 ++ post).
  apply count_inversions_merge_wp; auto; try (lens; fail).
  intros D3 HD3 HLD3. apply wp_ret.
  replace (ninv lt l + ninv lt r + cross lt l2 (y :: r2)) with (ninv lt xs).
  2:{ rewrite <- (firstn_skipn k xs). fold l r. rewrite ninv_app. rewrite (cross_perm_l lt l l2 r HP1).
      rewrite (cross_perm_r lt l2 r (y :: r2) HP2). reflexivity. }
  apply HQ; auto.
  - rewrite <- (firstn_skipn k xs). fold l r. etransitivity; [|apply merge_perm]. now apply Permutation_app.
  - apply merge_sorted; auto.
  - lia.
Qed.
End Inv.

Section ProbeInv.
Context {A T : Type} (comp : T -> T -> bool) (proj : A -> T).
Hypothesis HC : strict_weak_order comp.
Notation lt := (by_proj comp proj).

Lemma ninv_map : forall E F (l : F -> F -> bool) (g : E -> F) (xs : list E),
  ninv (fun x y => l (g x) (g y)) xs = ninv l (map g xs).
Proof.
  intros E F l g. assert (forall x xs, below (fun x y => l (g x) (g y)) x xs = below l (g x) (map g xs)) as K.
  { intros x xs. unfold below. induction xs as [|a xs IH]; simpl; auto. destruct (l (g a) (g x)); simpl; auto. }
  induction xs as [|a xs IH]; simpl; auto.
Qed.

Lemma probe_inv_wp : forall pre xs post (Q : nat -> mem A -> Prop),
  Q (length (inversion_pairs lt xs)) (pre ++ map Val xs ++ post) ->
  wp (probe_inv comp proj (length pre) (length pre + length xs)) Q (pre ++ map Val xs ++ post).
Proof.
  intros pre xs post Q HQ. unfold probe_inv. rewrite ninv_pairs in HQ.
  replace (length pre + length xs - length pre) with (length xs) by lia.
  destruct (Nat.ltb_spec (length xs) 2).
  { apply wp_ret. destruct xs as [|a [|b xs]]; auto. simpl in *; lia. }
  apply wp_bind. apply iterators_wp.
  pose proof (count_inversions_wp comp (@indirect_proj A T proj) HC (S (length xs)) (tag (length pre) xs) [] [Raw]
    (repeat Moved (length xs)) [] 0 (length xs) (S (length xs))
    (fun n _ => n = ninv lt xs)) as K.
  assert (length (tag (length pre) xs) = length xs) as HLt by (rewrite <- (map_length snd), tag_snd; auto).
  assert (map snd (tag (length pre) xs) = xs) as Hsnd by (apply tag_snd).
  simpl length in K.
  specialize (K ltac:(lia) (live_moved _) ltac:(rewrite repeat_length; lia) eq_refl ltac:(lia) ltac:(simpl; lia)).
  specialize (K ltac:(intros; transitivity (ninv lt (map snd (tag (length pre) xs))); [apply (ninv_map _ _ lt (@snd nat A))|now rewrite Hsnd])).
  apply wp_ok in K as (n & m' & K & ->). rewrite app_nil_r in K. simpl app in K.
  unfold wp. rewrite K. exact HQ.
Qed.
End ProbeInv.
