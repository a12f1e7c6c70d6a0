(** Proofs about the probes: the piles of longest_non_descending_subsequence, for rem and sus. *)
From Coq Require Import List Arith Lia Permutation Bool.
From Verif Require Import Spec.Order Spec.Probes Lang.Mem Spec.Sorts Proofs.Wp Proofs.OrderLib Proofs.Search Model.Search
  Model.Indirect Proofs.Indirect Model.Probes Proofs.ProbesA.
Import ListNotations.

Section Subseq.
Context {A : Type}.
Implicit Types xs ys : list A.

Lemma subseq_nil_l : forall xs, subseq [] xs.
Proof. induction xs; constructor; auto. Qed.
Lemma subseq_refl : forall xs, subseq xs xs.
Proof. induction xs; [constructor|now apply subseq_keep]. Qed.
Lemma subseq_length : forall ys xs, subseq ys xs -> length ys <= length xs.
Proof. induction 1; simpl; lia. Qed.
Lemma subseq_app : forall ys xs, subseq ys xs -> forall ys' xs', subseq ys' xs' -> subseq (ys ++ ys') (xs ++ xs').
Proof. induction 1; simpl; intros; auto; [apply subseq_skip|apply subseq_keep]; auto. Qed.
Lemma subseq_snoc : forall ys xs x, subseq ys xs -> subseq ys (xs ++ [x]).
Proof. intros. rewrite <- (app_nil_r ys). apply subseq_app; auto. apply subseq_nil_l. Qed.
Lemma subseq_snoc_keep : forall ys xs x, subseq ys xs -> subseq (ys ++ [x]) (xs ++ [x]).
Proof. intros. apply subseq_app; auto. apply subseq_refl. Qed.
Lemma subseq_snoc_inv : forall xs ys x, subseq ys (xs ++ [x]) -> subseq ys xs \/ exists ys', ys = ys' ++ [x] /\ subseq ys' xs.
Proof.
  induction xs as [|a xs IH]; intros ys x H; simpl in H.
  - inversion H as [| ? ? ? H1 | ? ? ? H1]; subst; [left; auto|].
    inversion H1; subst. right. exists []. split; auto.
  - inversion H as [| ? ? ? H1 | ? ys0 ? H1]; subst.
    + destruct (IH _ _ H1) as [H2|(ys' & -> & H2)]; [left; now apply subseq_skip|right; exists ys'; split; auto; now apply subseq_skip].
    + destruct (IH _ _ H1) as [H2|(ys' & -> & H2)]; [left; now apply subseq_keep|right; exists (a :: ys'); split; auto; now apply subseq_keep].
Qed.
Lemma subseq_positions : forall ys xs, subseq ys xs -> exists ps, length ps = length ys /\
  (forall k p y, nth_error ps k = Some p -> nth_error ys k = Some y -> nth_error xs p = Some y) /\
  (forall i j p q, i < j -> nth_error ps i = Some p -> nth_error ps j = Some q -> p < q).
Proof.
  induction 1 as [|x ys xs H (ps & HL & H1 & H2)|x ys xs H (ps & HL & H1 & H2)].
  - exists []. cj; auto; [intros [|k]|intros [|i]]; discriminate.
  - exists (map S ps). rewrite map_length. cj; auto.
    + intros k p y Hp Hy. rewrite nth_error_map in Hp. destruct (nth_error ps k) eqn:E; inversion Hp; subst. simpl. eauto.
    + intros i j p q Hij Hp Hq. rewrite nth_error_map in Hp, Hq.
      destruct (nth_error ps i) eqn:E1; inversion Hp; destruct (nth_error ps j) eqn:E2; inversion Hq.
      specialize (H2 _ _ _ _ Hij E1 E2). lia.
  - exists (0 :: map S ps). simpl. rewrite map_length. cj; auto.
    + intros [|k] p y Hp Hy; simpl in *; [inversion Hp; inversion Hy; auto|].
      rewrite nth_error_map in Hp. destruct (nth_error ps k) eqn:E; inversion Hp; subst. simpl. eauto.
    + intros [|i] [|j] p q Hij Hp Hq; try lia; simpl in *; rewrite ?nth_error_map in Hp; rewrite ?nth_error_map in Hq.
      * destruct (nth_error ps j) eqn:E2; inversion Hq. inversion Hp. subst. simpl. apply Nat.lt_0_succ.
      * destruct (nth_error ps i) eqn:E1; inversion Hp; destruct (nth_error ps j) eqn:E2; inversion Hq.
        assert (i < j) as Hij' by lia. specialize (H2 _ _ _ _ Hij' E1 E2). lia.
Qed.
End Subseq.

Section Piles.
Context {A : Type} (R : A -> A -> bool).
Hypothesis R_trans : forall x y z, R x y = true -> R y z = true -> R x z = true.
Hypothesis R_repl : forall v x y, R x v = false -> R x y = true -> R v y = true.

Definition rchain (l : list A) : Prop := forall i j x y, i < j -> nth_error l i = Some x -> nth_error l j = Some y -> R x y = true.

Lemma rchain_snoc : forall l x, rchain (l ++ [x]) <-> rchain l /\ forall y, In y l -> R y x = true.
Proof.
  intros l x. split.
  - intros H. split.
    + intros i j a b Hij Hi Hj. apply (H i j a b Hij); rewrite nth_error_app1; eauto using nth_lt.
    + intros y Hy. apply In_nth_error in Hy as (k & Hk). pose proof (nth_lt _ _ _ Hk).
      apply (H k (length l) y x); auto; [rewrite nth_error_app1; auto|apply nth_mid].
  - intros [H1 H2] i j a b Hij Hi Hj.
    destruct (Nat.lt_ge_cases j (length l)) as [L|L].
    + rewrite nth_error_app1 in Hi, Hj by lia. eauto.
    + pose proof (nth_lt _ _ _ Hj) as HL. rewrite app_length in HL. simpl in HL.
      rewrite nth_error_app1 in Hi by lia. rewrite nth_error_app2 in Hj by lia. replace (j - length l) with 0 in Hj by lia.
      inversion Hj; subst. apply H2. eapply nth_error_In; eauto.
Qed.

(** What the tops of the piles know about the elements seen so far. *)
Definition piles (done tops : list A) : Prop :=
  rchain tops /\
  (forall k t, nth_error tops k = Some t -> exists ys, subseq (ys ++ [t]) done /\ rchain (ys ++ [t]) /\ length ys = k) /\
  (forall ys e, subseq (ys ++ [e]) done -> rchain (ys ++ [e]) ->
     exists t, nth_error tops (length ys) = Some t /\ forall v, R e v = true -> R t v = true) /\
  (exists color : nat -> nat,
     (forall i x, nth_error done i = Some x -> exists t, nth_error tops (color i) = Some t /\ forall v, R x v = true -> R t v = true) /\
     (forall i j x y, i < j -> nth_error done i = Some x -> nth_error done j = Some y -> color i = color j -> R x y = false)).

Lemma piles_nil : piles [] [].
Proof.
  unfold piles. cj.
  - intros i j x y _ H. destruct i; discriminate.
  - intros k t H. destruct k; discriminate.
  - intros ys e H. apply subseq_length in H. rewrite app_length in H. simpl in H. lia.
  - exists (fun i => i). split; intros i; [|intros j]; intros; destruct i; discriminate.
Qed.

Definition place (k : nat) (v : A) (tops : list A) : list A := if k =? length tops then tops ++ [v] else upd k v tops.

Lemma nth_place : forall k v tops j, k <= length tops ->
  nth_error (place k v tops) j = if Nat.eqb j k then Some v else nth_error tops j.
Proof.
  intros k v tops j Hk. unfold place. destruct (Nat.eqb_spec k (length tops)) as [->|Hne].
  - destruct (Nat.eqb_spec j (length tops)) as [->|Hj]; [apply nth_mid|].
    destruct (Nat.lt_ge_cases j (length tops)).
    + now rewrite nth_error_app1.
    + rewrite (proj2 (nth_error_None (tops ++ [v]) j)) by (rewrite app_length; simpl; lia). symmetry. now apply nth_error_None.
  - rewrite nth_upd. rewrite Nat.eqb_sym. destruct (Nat.eqb_spec j k) as [->|]; auto.
    destruct (Nat.ltb_spec k (length tops)); auto. lia.
Qed.
Lemma place_length : forall k v tops, k <= length tops -> length tops <= length (place k v tops).
Proof.
  intros k v tops H. unfold place. destruct (k =? length tops); [rewrite app_length; simpl; lia|]. rewrite upd_length. auto.
Qed.

Lemma piles_mono : forall done tops v, piles done tops -> mono (fun t => R t v) tops.
Proof. intros done tops v (H & _) i j x y Hij Hi Hj Hy. eapply R_trans; [|exact Hy]. eauto. Qed.

Lemma piles_step : forall done tops v k, piles done tops -> k <= length tops ->
  (forall i t, i < k -> nth_error tops i = Some t -> R t v = true) ->
  (forall t, nth_error tops k = Some t -> R t v = false) ->
  piles (done ++ [v]) (place k v tops).
Proof.
  intros done tops v k (P1 & P2 & P3 & (color & P4 & P5)) Hk Hlow Hat.
  assert (Hk_step : forall x, (exists t, nth_error tops k = Some t /\ forall w, R x w = true -> R t w = true) ->
    forall w, R x w = true -> R v w = true).
  { intros x (t & Ht & Hx) w Hw. apply (R_repl v t w); auto. }
  assert (Hkeep : forall j x, (exists t, nth_error tops j = Some t /\ forall w, R x w = true -> R t w = true) ->
    exists t, nth_error (place k v tops) j = Some t /\ forall w, R x w = true -> R t w = true).
  { intros j x H. rewrite nth_place by auto. destruct (Nat.eqb_spec j k) as [->|]; auto.
    exists v. split; auto. now apply Hk_step. }
  unfold piles. cj.
  - intros i j x y Hij Hi Hj. rewrite nth_place in Hi, Hj by auto.
    destruct (Nat.eqb_spec i k) as [->|], (Nat.eqb_spec j k) as [->|]; try lia.
    + inversion Hi; subst x. destruct (nth_some _ tops k) as (t & Ht). { apply nth_lt in Hj. lia. }
      apply (R_repl v t y); eauto.
    + inversion Hj; subst y. eauto.
    + eauto.
  - intros j t Hj. rewrite nth_place in Hj by auto. destruct (Nat.eqb_spec j k) as [->|].
    + inversion Hj; subst t. destruct k as [|k].
      * exists []. cj; auto. { apply subseq_snoc_keep. apply subseq_nil_l. }
        intros [|i] [|j] x y Hij Hi Hj'; simpl in *; try lia; destruct j; discriminate.
      * destruct (nth_some _ tops k) as (t & Ht); [lia|]. destruct (P2 k t Ht) as (ys & HS & HR & HL).
        exists (ys ++ [t]). cj.
        -- now apply subseq_snoc_keep.
        -- apply rchain_snoc. split; auto. intros y Hy. apply in_app_or in Hy as [Hy|[<-|[]]].
           ++ apply R_trans with t; [|apply (Hlow k); auto]. apply rchain_snoc in HR as [_ HR]. auto.
           ++ apply (Hlow k); auto.
        -- rewrite app_length. simpl. lia.
    + destruct (P2 j t Hj) as (ys & HS & HR & HL). exists ys. cj; auto. now apply subseq_snoc.
  - intros ys e HS HR. apply subseq_snoc_inv in HS as [HS|(ys' & E & HS)]; [apply Hkeep; auto|].
    apply app_inj_tail in E as [E1 E2]. subst ys' e.
    assert (length ys <= k) as HL.
    { destruct ys as [|y0 ys0] eqn:Ey; [simpl; lia|]. destruct (@exists_last _ (y0 :: ys0)) as (ys1 & e' & E1); [discriminate|].
      rewrite E1 in *. clear Ey y0 ys0 E1. apply rchain_snoc in HR as [HR HR']. destruct (P3 ys1 e' HS HR) as (t & Ht & Hte).
      rewrite app_length. simpl. destruct (Nat.le_gt_cases (length ys1 + 1) k) as [|L]; auto. exfalso.
      assert (R t v = true) as Htv. { apply Hte. apply HR'. apply in_or_app. right. left. auto. }
      destruct (nth_some _ tops k) as (t' & Ht'). { apply nth_lt in Ht. lia. }
      specialize (Hat t' Ht'). destruct (Nat.eq_dec k (length ys1)) as [->|]; [congruence|].
      assert (R t' t = true) as Htt by (eapply (P1 k (length ys1)); eauto; lia).
      rewrite (R_trans _ _ _ Htt Htv) in Hat. discriminate. }
    rewrite nth_place by auto. destruct (Nat.eqb_spec (length ys) k) as [E|].
    + exists v. auto.
    + destruct (nth_some _ tops (length ys)) as (t & Ht); [lia|]. exists t. split; auto.
      intros w Hw. apply R_trans with v; auto. apply (Hlow (length ys)); auto. lia.
  - exists (fun i => if i =? length done then k else color i). split.
    + intros i x Hx. destruct (Nat.eqb_spec i (length done)) as [->|].
      * rewrite nth_mid in Hx. inversion Hx; subst x. exists v. split; auto. rewrite nth_place by auto. now rewrite Nat.eqb_refl.
      * apply Hkeep. apply P4. pose proof (nth_lt _ _ _ Hx) as HL. rewrite app_length in HL; simpl in HL.
        rewrite nth_error_app1 in Hx by lia. auto.
    + intros i j x y Hij Hx Hy. pose proof (nth_lt _ _ _ Hy) as HL. rewrite app_length in HL; simpl in HL.
      rewrite nth_error_app1 in Hx by lia. destruct (Nat.eqb_spec i (length done)); [lia|].
      destruct (Nat.eqb_spec j (length done)) as [->|].
      * rewrite nth_mid in Hy. inversion Hy; subst y. intros Ec. destruct (P4 i x Hx) as (t & Ht & Hxt).
        rewrite Ec in Ht. specialize (Hat t Ht). destruct (R x v) eqn:E; auto. rewrite (Hxt v E) in Hat. discriminate.
      * rewrite nth_error_app1 in Hy by lia. eauto.
Qed.

Lemma piles_longest : forall xs tops, piles xs tops ->
  (exists ys, subseq ys xs /\ rchain ys /\ length ys = length tops) /\
  (forall ys, subseq ys xs -> rchain ys -> length ys <= length tops).
Proof using R.
  clear R_trans R_repl.
  intros xs tops (P1 & P2 & P3 & _). split.
  - destruct (length tops) as [|k] eqn:E.
    + exists []. cj; auto using subseq_nil_l. intros i j x y _ H; destruct i; discriminate.
    + destruct (nth_some _ tops k) as (t & Ht); [lia|]. destruct (P2 k t Ht) as (ys & HS & HR & HL).
      exists (ys ++ [t]). cj; auto. rewrite app_length. simpl. lia.
  - intros ys HS HR. destruct ys as [|y0 ys0] eqn:Ey; [simpl; lia|].
    destruct (@exists_last _ (y0 :: ys0)) as (ys1 & e' & E1); [discriminate|]. rewrite E1 in *.
    destruct (P3 _ _ HS HR) as (t & Ht & _). apply nth_lt in Ht. rewrite app_length. simpl. lia.
Qed.
End Piles.

Lemma map_upd : forall X Y (f : X -> Y) l i x, map f (upd i x l) = upd i (f x) (map f l).
Proof. induction l; destruct i; simpl; intros; auto. now rewrite IHl. Qed.

Section Lnds.
Context {A T : Type} (compare : T -> T -> bool) (proj : A -> T) (R : A -> A -> bool).
Hypothesis HR : forall x y, negb (compare (proj y) (proj x)) = R x y.
Hypothesis R_trans : forall x y z, R x y = true -> R y z = true -> R x z = true.
Hypothesis R_repl : forall v x y, R x v = false -> R x y = true -> R v y = true.

Lemma piles_one : forall x : A, piles R [x] [x].
Proof.
  intros x. change (piles R ([] ++ [x]) (place 0 x [])). apply piles_step; auto using piles_nil.
  - intros i t H. lia.
  - intros t H. discriminate.
Qed.

Lemma lnds_wp : forall recompute ra pre xs post size (Q : nat * nat -> mem A -> Prop),
  (recompute = true -> size = 0) ->
  (forall tops size', piles R xs tops -> (recompute = true \/ size = length xs -> size' = length xs) ->
     Q (length tops, size') (pre ++ map Val xs ++ post)) ->
  wp (longest_non_descending_subsequence proj recompute ra compare (length pre) (length pre + length xs) size) Q
    (pre ++ map Val xs ++ post).
Proof.
  intros recompute ra pre xs post size Q Hsize HQ. unfold longest_non_descending_subsequence.
  destruct (Nat.eqb_spec (length pre) (length pre + length xs)) as [E|E].
  { assert (xs = []) as -> by (destruct xs; auto; simpl in E; lia). apply wp_ret. apply (HQ [] 0); auto using piles_nil. }
  destruct (Nat.eqb_spec (S (length pre)) (length pre + length xs)) as [E1|E1].
  { destruct xs as [|x [|y xs]]; simpl in E1; try lia. apply wp_ret. apply (HQ [x] 1); auto using piles_one. }
  apply wp_bind.
  set (size0 := if recompute && ra then length pre + length xs - length pre else size).
  eapply wp_loop' with (mu := fun '(first, tops, size) => length pre + length xs - first)
    (I := fun '(first, tops, size') m => exists done todo, xs = done ++ todo /\ first = length pre + length done /\
       piles R done (map snd tops) /\ size' = size0 + (if recompute && negb ra then length done else 0) /\
       m = pre ++ map Val xs ++ post).
  - exists [], xs. cj; simpl; auto using piles_nil. destruct (recompute && negb ra); lia.
  - lia.
  - intros [[first tops] size'] m (done & todo & Ex & -> & HP & Esz & ->).
    destruct (Nat.eqb_spec (length pre + length done) (length pre + length xs)) as [En|En].
    + assert (todo = []) as -> by (subst xs; destruct todo; [auto|lens]). rewrite app_nil_r in Ex. subst done.
      apply wp_ret. apply wp_ret. rewrite <- (map_length snd tops). apply HQ; auto.
      intros Hr. rewrite Esz. unfold size0. destruct recompute; simpl.
      * specialize (Hsize eq_refl). destruct ra; simpl; lia.
      * destruct Hr as [Hr|Hr]; [discriminate|]. lia.
    + destruct todo as [|v todo]. { subst xs. rewrite app_nil_r in En. lia. }
      apply wp_bind. eapply wp_get_list. { subst xs. apply nth_mid. }
      apply wp_bind. apply wp_on_vector.
      rewrite <- (app_nil_r (map Val tops)). rewrite <- (app_nil_l (map Val tops ++ [])).
      eapply (upper_bound_wp compare (@indirect_proj A T proj) tops [] []); auto.
      intros u w [Etops Hpart].
      specialize (Hpart ltac:(
        intros i j [p x] [q y] Hij Hi Hj Hy; unfold indirect_proj in *; simpl in *; rewrite HR in *;
        apply (R_trans x y v); auto; destruct HP as (HP & _); apply (HP i j); auto; rewrite nth_error_map;
        [now rewrite Hi|now rewrite Hj])).
      assert (forall q : nat * A, R (snd q) v = negb (compare (proj v) (indirect_proj proj q))) as HRv
        by (intros; rewrite <- HR; reflexivity).
      assert (forall i t, i < length u -> nth_error (map snd tops) i = Some t -> R t v = true) as Hlow.
      { intros i t Hi Ht. rewrite nth_error_map in Ht. destruct (nth_error tops i) as [[p t']|] eqn:Ei; inversion Ht; subst t'. change t with (snd (p, t)). rewrite HRv.
        apply (proj1 Hpart). rewrite Etops in Ei. rewrite nth_error_app1 in Ei by auto.
        eapply nth_error_In; eauto. }
      assert (forall t, nth_error (map snd tops) (length u) = Some t -> R t v = false) as Hat.
      { intros t Ht. rewrite nth_error_map in Ht. destruct (nth_error tops (length u)) as [[p t']|] eqn:Ei; inversion Ht; subst t'. change t with (snd (p, t)). rewrite HRv.
        apply (proj2 Hpart). rewrite Etops in Ei. rewrite nth_error_app2, Nat.sub_diag in Ei by auto.
        eapply nth_error_In; eauto. }
      apply wp_ret. split; [|subst xs; lens].
      exists (done ++ [v]), todo. cj; auto.
      * subst xs. rewrite <- app_assoc. reflexivity.
      * rewrite app_length. simpl. lia.
      * assert (map snd (if 0 + length u =? length tops then tops ++ [(length pre + length done, v)]
                         else upd (0 + length u) (length pre + length done, v) tops) =
                place (length u) v (map snd tops)) as ->.
        { unfold place. rewrite map_length. simpl. destruct (length u =? length tops).
          - rewrite map_app. reflexivity.
          - rewrite map_upd. reflexivity. }
        apply piles_step; auto. rewrite map_length, Etops, app_length. lia.
      * subst size'. rewrite app_length. simpl. destruct (recompute && negb ra); lia.
Qed.
End Lnds.

Section Probes.
Context {A T : Type} (comp : T -> T -> bool) (proj : A -> T).
Hypothesis HC : strict_weak_order comp.
Notation lt := (by_proj comp proj).
Let HW : strict_weak_order lt := swo_by_proj _ _ comp proj HC.

Lemma rem_trans : forall x y z : A, negb (comp (proj y) (proj x)) = true -> negb (comp (proj z) (proj y)) = true ->
  negb (comp (proj z) (proj x)) = true.
Proof.
  intros x y z H1 H2. apply negb_true_iff in H1, H2. apply negb_true_iff.
  exact (le_trans lt HW x y z H1 H2).
Qed.
Lemma rem_repl : forall v x y : A, negb (comp (proj v) (proj x)) = false -> negb (comp (proj y) (proj x)) = true ->
  negb (comp (proj y) (proj v)) = true.
Proof.
  intros v x y H1 H2. apply negb_true_iff in H2. apply negb_false_iff in H1. apply negb_true_iff.
  apply (lt_asym lt HW v y). exact (lt_le_trans lt HW v x y H1 H2).
Qed.

Lemma piles_lnds : forall xs tops, piles (fun x y => negb (comp (proj y) (proj x))) xs tops -> lnds_length lt xs (length tops).
Proof.
  intros xs tops H. apply piles_longest in H as [(ys & H1 & H2 & H3) H].
  assert (forall ys, rchain (fun x y => negb (comp (proj y) (proj x))) ys <-> sorted lt ys) as K.
  { intros zs. split; intros Hz i j x y Hij Hi Hj; [apply negb_true_iff|]; specialize (Hz i j x y Hij Hi Hj); auto.
    now apply negb_true_iff. }
  split.
  - exists ys. cj; auto. now apply K.
  - intros zs HS HZ. apply H; auto. now apply K.
Qed.

Lemma lnds_length_le : forall (xs : list A) k, lnds_length lt xs k -> k <= length xs /\ (xs <> [] -> 1 <= k).
Proof.
  intros xs k [(ys & H1 & _ & <-) H2]. split. { now apply subseq_length. }
  intros Hne. destruct xs as [|x xs]; [congruence|]. apply (H2 [x]); [|apply sorted_one].
  apply subseq_keep. apply subseq_nil_l.
Qed.
Lemma lnds_sorted : forall (xs : list A) k, sorted lt xs -> lnds_length lt xs k -> k = length xs.
Proof.
  intros xs k HS H. pose proof (proj1 (lnds_length_le xs k H)). destruct H as [_ H].
  specialize (H xs (subseq_refl xs) HS). lia.
Qed.
Lemma lnds_fun : forall (xs : list A) k k', lnds_length lt xs k -> lnds_length lt xs k' -> k = k'.
Proof.
  intros xs k k' [(ys & H1 & H2 & H3) H4] [(ys' & H1' & H2' & H3') H4'].
  specialize (H4 _ H1' H2'). specialize (H4' _ H1 H2). lia.
Qed.

Lemma probe_rem_wp : forall ra pre xs post (Q : nat -> mem A -> Prop),
  (forall k, lnds_length lt xs k -> Q (length xs - k) (pre ++ map Val xs ++ post)) ->
  wp (probe_rem comp proj ra (length pre) (length pre + length xs)) Q (pre ++ map Val xs ++ post).
Proof.
  intros ra pre xs post Q HQ. unfold probe_rem. apply wp_bind.
  eapply lnds_wp with (R := fun x y => negb (comp (proj y) (proj x))); eauto using rem_trans, rem_repl.
  intros tops size' HP Hs. apply wp_ret. rewrite Hs by auto. apply piles_lnds in HP.
  pose proof (lnds_length_le _ _ HP). destruct (Nat.leb_spec (length tops) (length xs)); [auto|lia].
Qed.
Lemma probe_rem_iterable_wp : forall ra pre xs post (Q : nat -> mem A -> Prop),
  (forall k, lnds_length lt xs k -> Q (length xs - k) (pre ++ map Val xs ++ post)) ->
  wp (probe_rem_iterable comp proj ra (length pre) (length pre + length xs)) Q (pre ++ map Val xs ++ post).
Proof.
  intros ra pre xs post Q HQ. unfold probe_rem_iterable. apply wp_bind.
  eapply lnds_wp with (R := fun x y => negb (comp (proj y) (proj x))); eauto using rem_trans, rem_repl.
  { discriminate. }
  intros tops size' HP Hs. apply wp_ret. rewrite Hs by (right; lia). apply piles_lnds in HP.
  pose proof (lnds_length_le _ _ HP). destruct (Nat.leb_spec (length tops) (length xs)); [auto|lia].
Qed.

Lemma piles_splits : forall xs tops, piles (fun x y => lt y x) xs tops -> min_splits lt xs (length tops).
Proof.
  intros xs tops HP. split.
  - destruct HP as (_ & _ & _ & (color & H1 & H2)). exists color. split.
    + intros i Hi. destruct (nth_some _ xs i Hi) as (x & Hx). destruct (H1 i x Hx) as (t & Ht & _). now apply nth_lt in Ht.
    + intros i j Hij Hc. destruct (nth_some _ xs i) as (x & Hx); [lia|]. destruct (nth_some _ xs j) as (y & Hy); [lia|].
      rewrite (less_pos_some lt xs i j x y Hx Hy). eapply (H2 i j); eauto. lia.
  - intros k' (color & H1 & H2). apply piles_longest in HP as [(ys & HS & HR & <-) _].
    destruct (subseq_positions _ _ HS) as (ps & HL & Hp & Hlt). rewrite <- HL.
    assert (forall k p, nth_error ps k = Some p -> exists y, nth_error ys k = Some y /\ nth_error xs p = Some y) as Hval.
    { intros k p Hk. pose proof (nth_lt _ _ _ Hk). destruct (nth_some _ ys k) as (y & Hy); [lia|]. eauto. }
    rewrite <- (map_length color ps). rewrite <- (seq_length k' 0). apply NoDup_incl_length.
    + apply NoDup_nth_error. intros i j Hi Eij. rewrite map_length in Hi. rewrite !nth_error_map in Eij.
      destruct (nth_some _ ps i Hi) as (p & Ep). rewrite Ep in Eij. simpl in Eij.
      destruct (nth_error ps j) as [q|] eqn:Eq; [|discriminate]. inversion Eij as [Ec].
      assert (forall i j p q, i < j -> nth_error ps i = Some p -> nth_error ps j = Some q -> color p <> color q) as K.
      { clear i j p q Hi Eij Ep Eq Ec. intros i j p q Hij Ep Eq Ec.
        destruct (Hval i p Ep) as (x & Hx & Hx'). destruct (Hval j q Eq) as (y & Hy & Hy').
        assert (less_pos lt xs q p = false) as E.
        { apply H2; auto. split; [eapply Hlt; eauto|now apply nth_lt in Hy']. }
        rewrite (less_pos_some lt xs p q x y Hx' Hy') in E. rewrite (HR i j x y Hij Hx Hy) in E. discriminate. }
      destruct (Nat.lt_trichotomy i j) as [L|[L|L]]; auto; exfalso; eapply K; eauto.
    + intros c Hc. apply in_map_iff in Hc as (p & <- & Hin). apply in_seq. simpl.
      apply In_nth_error in Hin as (k & Hk). destruct (Hval k p Hk) as (y & _ & Hy). apply nth_lt in Hy. specialize (H1 p Hy). lia.
Qed.
Lemma splits_bounds : forall (xs : list A) k, min_splits lt xs k -> k <= length xs /\ (sorted lt xs -> k <= 1) /\ (xs <> [] -> 1 <= k).
Proof.
  intros xs k [(color & Hc & _) H]. cj.
  - apply H. exists (fun i => i). split; auto. intros; lia.
  - intros HS. apply H. exists (fun _ => 0). split; auto. intros i j Hij _. apply sorted_less_pos; auto. lia.
  - intros Hne. destruct xs; [congruence|]. specialize (Hc 0). simpl in Hc. lia.
Qed.

Lemma probe_sus_wp : forall ra pre xs post (Q : nat -> mem A -> Prop),
  (forall k, min_splits lt xs k -> Q (k - 1) (pre ++ map Val xs ++ post)) ->
  wp (probe_sus comp proj ra (length pre) (length pre + length xs)) Q (pre ++ map Val xs ++ post).
Proof.
  intros ra pre xs post Q HQ. unfold probe_sus. apply wp_bind.
  eapply lnds_wp with (R := fun x y => lt y x).
  - intros x y. apply negb_involutive.
  - intros x y z H1 H2. exact (lt_trans lt HW z y x H2 H1).
  - intros v x y H1 H2. exact (lt_le_trans lt HW y x v H2 H1).
  - discriminate.
  - intros tops size' HP _. apply wp_ret.
    apply piles_splits in HP. specialize (HQ _ HP).
    destruct (Nat.ltb_spec 0 (length tops)); auto. replace (length tops - 1) with 0 in HQ by lia. auto.
Qed.
End Probes.
