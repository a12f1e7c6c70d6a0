(** Proofs about the probes: dis, and the probes that use the sorted vector of iterators: ham, max. *)
From Coq Require Import List Arith Lia Permutation Bool ZArith Zify ZifyNat.
From Verif Require Import Spec.Order Spec.Probes Lang.Mem Spec.Sorts Proofs.Wp Proofs.OrderLib Proofs.Search Model.Search
  Model.Heap Model.Rotate Model.Indirect Proofs.Indirect Model.Probes Proofs.ProbesA Proofs.ProbesC.
Import ListNotations.
Ltac Zify.zify_post_hook ::= Z.to_euclidean_division_equations.

(** * dis *)
Section DisSpec.
Context {A : Type} (lt : A -> A -> bool).
Definition inv_at (xs : list A) (i j : nat) : Prop := i < j /\ less_pos lt xs j i = true.

Lemma inv_at_pairs : forall xs i j, inv_at xs i j <-> In (i, j) (inversion_pairs lt xs).
Proof.
  intros xs i j. unfold inversion_pairs. rewrite filter_In, in_prod_iff, !in_seq, andb_true_iff, Nat.ltb_lt.
  unfold inv_at. split.
  - intros [H1 H2]. cj; auto; try lia.
    + unfold less_pos in H2. destruct (nth_error xs j) eqn:E; [|discriminate]. destruct (nth_error xs i) eqn:E'; [|discriminate].
      apply nth_lt in E'. lia.
    + unfold less_pos in H2. destruct (nth_error xs j) eqn:E; [|discriminate]. apply nth_lt in E. lia.
  - tauto.
Qed.
Lemma inv_at_lt : forall xs i j, inv_at xs i j -> i < j < length xs.
Proof.
  intros xs i j [H1 H2]. split; auto. unfold less_pos in H2. destruct (nth_error xs j) eqn:E; [|discriminate]. eapply nth_lt; eauto.
Qed.

Lemma fold_max_spec : forall l d, (forall x, In x l -> x <= d) -> (d = 0 \/ exists x, In x l /\ d <= x) -> fold_right Nat.max 0 l = d.
Proof.
  induction l as [|a l IH]; intros d H1 H2; simpl.
  - destruct H2 as [->|(x & [] & _)]; auto.
  - destruct (Nat.eq_dec d 0) as [->|Hd].
    { rewrite (IH 0); auto. { specialize (H1 a (or_introl eq_refl)). lia. } intros x Hx. apply H1. right; auto. }
    destruct H2 as [->|(x & [<-|Hx] & Hdx)]; [lia| |].
    + specialize (H1 a (or_introl eq_refl)) as Ha.
      assert (fold_right Nat.max 0 l <= d); [|lia].
      assert (forall l', (forall x, In x l' -> x <= d) -> fold_right Nat.max 0 l' <= d) as K.
      { induction l' as [|b l' IH']; simpl; intros H; [lia|]. specialize (IH' ltac:(intros; apply H; right; auto)).
        specialize (H b (or_introl eq_refl)). lia. }
      apply K. intros; apply H1; right; auto.
    + rewrite (IH d); [| |right; eauto]. { specialize (H1 a (or_introl eq_refl)). lia. } intros; apply H1; right; auto.
Qed.

Lemma max_inversion_distance_spec : forall xs d, (forall i j, inv_at xs i j -> j - i <= d) ->
  (d = 0 \/ exists i j, inv_at xs i j /\ d <= j - i) -> max_inversion_distance lt xs = d.
Proof.
  intros xs d H1 H2. unfold max_inversion_distance. apply fold_max_spec.
  - intros x Hx. apply in_map_iff in Hx as ([i j] & <- & Hin). apply H1. now apply inv_at_pairs.
  - destruct H2 as [->|(i & j & Hij & Hd)]; auto. right. exists (j - i). split; auto.
    apply in_map_iff. exists (i, j). split; auto. now apply inv_at_pairs.
Qed.
Lemma max_inversion_distance_bounds : forall xs, max_inversion_distance lt xs <= length xs - 1 /\
  (sorted lt xs -> max_inversion_distance lt xs = 0).
Proof.
  intros xs. split.
  - unfold max_inversion_distance.
    assert (forall l, (forall i j, In (i, j) l -> i < j < length xs) ->
      fold_right Nat.max 0 (map (fun '(i, j) => j - i) l) <= length xs - 1) as K.
    { induction l as [|[a b] l IH]; simpl; intros H; [lia|]. specialize (IH ltac:(intros; apply H; right; auto)).
      specialize (H a b (or_introl eq_refl)). lia. }
    apply K. intros i j H. apply inv_at_pairs in H. now apply inv_at_lt.
  - intros HS. apply max_inversion_distance_spec; auto. intros i j [H1 H2].
    rewrite (proj1 (sorted_less_pos lt xs) HS i j) in H2 by auto. discriminate.
Qed.
End DisSpec.

Section Dis.
Context {A T : Type} (comp : T -> T -> bool) (proj : A -> T).
Hypothesis HC : strict_weak_order comp.
Notation lt := (by_proj comp proj).
Let HW : strict_weak_order lt := swo_by_proj _ _ comp proj HC.

Lemma is_p_sorted_wp : forall pre xs post p (Q : bool -> mem A -> Prop), p < length xs ->
  (forall b, (b = true <-> forall i j, inv_at lt xs i j -> j - i <= p) -> Q b (pre ++ map Val xs ++ post)) ->
  wp (is_p_sorted comp proj (length pre) (length pre + length xs) (length pre + p)) Q (pre ++ map Val xs ++ post).
Proof.
  intros pre xs post p Q Hp HQ. unfold is_p_sorted.
  apply wp_loop' with (mu := fun '(it1, first, max_it) => length pre + length xs - it1)
    (I := fun '(it1, first, max_it) m => exists c q z, it1 = length pre + c + S p /\ first = length pre + c /\ max_it = length pre + q /\
       c + S p <= length xs /\ nth_error xs q = Some z /\ (c = 0 /\ q = 0 \/ q < c) /\
       (forall k y, k < c -> nth_error xs k = Some y -> lt z y = false) /\
       (forall i j, j < c + S p -> inv_at lt xs i j -> j - i <= p) /\
       m = pre ++ map Val xs ++ post).
  - destruct (nth_some _ xs 0) as (z & Hz); [lia|]. exists 0, 0, z. cj; auto; try lia; intros; lia.
  - lia.
  - intros [[it1 first] max_it] m (c & q & z & -> & -> & -> & Hc & Hz & Hq & Hmax & Hinv & ->).
    destruct (Nat.eqb_spec (length pre + c + S p) (length pre + length xs)) as [E|E].
    + apply wp_ret. apply HQ. split; auto. intros _ i j Hij. apply Hinv; auto. apply inv_at_lt in Hij. lia.
    + destruct (nth_some _ xs c) as (y & Hy); [lia|]. destruct (nth_some _ xs (c + S p)) as (x & Hx); [lia|].
      apply wp_bind. eapply wp_get_list; eauto. apply wp_bind. eapply wp_get_list; eauto.
      change (comp (proj z) (proj y)) with (lt z y).
      assert (exists q' z', (if lt z y then length pre + c else length pre + q) = length pre + q' /\ nth_error xs q' = Some z' /\
        q' < S c /\ (forall k w, k < S c -> nth_error xs k = Some w -> lt z' w = false)) as (q' & z' & -> & Hz' & Hq' & Hmax').
      { destruct (lt z y) eqn:El.
        - exists c, y. cj; auto. intros k w Hk Hw. destruct (Nat.eq_dec k c) as [->|].
          + rewrite Hy in Hw. inversion Hw; subst. apply (lt_irrefl lt HW).
          + apply (lt_asym lt HW). apply (le_lt_trans lt HW) with (y := z); auto. red. eapply Hmax; eauto. lia.
        - exists q, z. cj; auto; [lia|]. intros k w Hk Hw. destruct (Nat.eq_dec k c) as [->|]; [congruence|].
          eapply Hmax; eauto. lia. }
      replace (length pre + c + S p) with (length pre + (c + S p)) by lia.
      apply wp_bind. eapply wp_get_list; eauto. apply wp_bind. eapply wp_get_list; eauto.
      change (comp (proj x) (proj z')) with (lt x z'). destruct (lt x z') eqn:El; apply wp_ret.
      * apply HQ. split; [discriminate|]. intros Hall. exfalso.
        specialize (Hall q' (c + S p)). assert (c + S p - q' <= p); [|lia]. apply Hall. split; [lia|].
        rewrite (less_pos_some lt xs q' (c + S p) z' x Hz' Hx). auto.
      * split; [|lia]. exists (S c), q', z'. cj; auto; try lia.
        intros i j Hj Hij. destruct (Nat.eq_dec j (c + S p)) as [->|]; [|apply Hinv; auto; lia].
        destruct (Nat.le_gt_cases (c + S p - i) p) as [|L]; auto. exfalso.
        destruct Hij as [Hlt Hij]. destruct (nth_some _ xs i) as (w & Hw); [lia|].
        rewrite (less_pos_some lt xs i (c + S p) w x Hw Hx) in Hij.
        specialize (Hmax' i w ltac:(lia) Hw). rewrite (lt_le_trans lt HW x w z' Hij Hmax') in El. discriminate.
Qed.

Lemma inplace_dis_wp : forall pre xs post (Q : nat -> mem A -> Prop),
  Q (max_inversion_distance lt xs) (pre ++ map Val xs ++ post) ->
  wp (inplace_dis comp proj (length pre) (length pre + length xs) (length xs)) Q (pre ++ map Val xs ++ post).
Proof.
  intros pre xs post Q HQ. unfold inplace_dis.
  apply wp_loop' with (mu := fun '(size, res, res_it) => size)
    (I := fun '(size, res, res_it) m => res_it = length pre + res /\ res + size <= length xs /\
       (forall i j, inv_at lt xs i j -> j - i <= res + size) /\ (res = 0 \/ exists i j, inv_at lt xs i j /\ res <= j - i) /\
       m = pre ++ map Val xs ++ post).
  - cj; auto; try lia. intros i j Hij. apply inv_at_lt in Hij. lia.
  - lia.
  - intros [[size res] res_it] m (-> & Hs & Hall & Hex & ->).
    destruct (Nat.ltb_spec 0 size).
    + apply wp_bind. replace (length pre + res + size / 2) with (length pre + (res + size / 2)) by lia.
      apply is_p_sorted_wp; [lia|]. intros [|] Hb; apply wp_ret.
      * split; [|lia]. cj; auto; try lia. apply Hb. auto.
      * split; [|lia]. cj; auto; try lia.
        -- intros i j Hij. specialize (Hall i j Hij). lia.
        -- right.
           assert (~ Forall (fun '(i, j) => j - i <= res + size / 2) (inversion_pairs lt xs)) as HN.
           { intros HF. assert (false = true); [|discriminate]. apply Hb. intros i j Hij.
             apply inv_at_pairs in Hij. exact (proj1 (Forall_forall _ _) HF _ Hij). }
           apply Exists_Forall_neg in HN.
           ++ apply Exists_exists in HN as ([i j] & Hin & Hn). exists i, j. split; [now apply inv_at_pairs|lia].
           ++ intros [i j]. destruct (Nat.le_gt_cases (j - i) (res + size / 2)); [left|right]; lia.
    + apply wp_ret. assert (size = 0) as -> by lia. rewrite Nat.add_0_r in Hall.
      now rewrite <- (max_inversion_distance_spec lt xs res Hall Hex).
Qed.

Definition max_upto (xs : list A) (k : nat) (z : A) : Prop :=
  (exists p, p <= k /\ nth_error xs p = Some z) /\ forall q y, q <= k -> nth_error xs q = Some y -> lt z y = false.
Definition min_from (xs : list A) (k : nat) (z : A) : Prop :=
  (exists p, k <= p /\ nth_error xs p = Some z) /\ forall q y, k <= q -> nth_error xs q = Some y -> lt y z = false.

Definition dis_sound xs res : Prop := res = 0 \/ exists a b, inv_at lt xs a b /\ res <= b - a.

Lemma dis_while_wp : forall pre xs post cm j i rl_min res (Q : ((nat * nat * (nat * A) * nat) + nat) -> mem A -> Prop),
  length cm = length xs -> (forall k p z, nth_error cm k = Some (p, z) -> max_upto xs k z) ->
  1 <= j <= length xs -> 1 <= i <= length xs -> res < i ->
  min_from xs (i - 1) (snd rl_min) -> dis_sound xs res ->
  (i <= j \/ exists p z, nth_error cm (j - 1) = Some (p, z) /\ lt (snd rl_min) z = true) ->
  (forall a b, inv_at lt xs a b -> i <= b -> b - a <= res) ->
  Q (inr (max_inversion_distance lt xs)) (pre ++ map Val xs ++ post) ->
  (forall i' rl_min' res', 2 <= j -> 1 <= i' <= length xs -> res' < i' -> min_from xs (i' - 1) (snd rl_min') -> dis_sound xs res' ->
     (i' <= j - 1 \/ exists p z, nth_error cm (j - 2) = Some (p, z) /\ lt (snd rl_min') z = true) ->
     (forall a b, inv_at lt xs a b -> i' <= b -> b - a <= res') ->
     Q (inl (i', length pre + i' - 1, rl_min', res')) (pre ++ map Val xs ++ post)) ->
  wp (dis_while comp proj cm j i (length pre + i - 1) rl_min res) Q (pre ++ map Val xs ++ post).
Proof.
  intros pre xs post cm j i rl_min res Q HLcm Hcm Hj Hi Hri Hmin Hs Hc Hb HQr HQl. unfold dis_while.
  apply wp_loop' with (mu := fun '(i, rl_it, rl_min, res) => i)
    (I := fun '(i, rl_it, rl_min, res) m => rl_it = length pre + i - 1 /\ 1 <= i <= length xs /\ res < i /\
       min_from xs (i - 1) (snd rl_min) /\ dis_sound xs res /\
       (i <= j \/ exists p z, nth_error cm (j - 1) = Some (p, z) /\ lt (snd rl_min) z = true) /\
       (forall a b, inv_at lt xs a b -> i <= b -> b - a <= res) /\ m = pre ++ map Val xs ++ post).
  - cj; auto; lia.
  - lia.
  - clear i rl_min res Hi Hri Hmin Hs Hc Hb. intros [[[i rl_it] rl_min] res] m (-> & Hi & Hri & Hmin & Hs & Hc & Hb & ->).
    destruct (Nat.leb_spec j i) as [Lji|Lji]; simpl negb; cbv iota.
    2:{ apply wp_ret. apply HQl; auto; [lia|]. left. lia. }
    destruct (nth_some _ cm (j - 1)) as ([pz z] & Hz); [lia|].
    apply wp_bind. eapply wp_rd; eauto. simpl snd.
    change (comp (proj z) (proj (snd rl_min))) with (lt z (snd rl_min)).
    destruct (Hcm _ _ _ Hz) as [(pm & Hpm & Hzm) Hzmax]. destruct Hmin as [(pr & Hpr & Hrm) Hrmin].
    assert (lt z (snd rl_min) = false) as E1.
    { destruct Hc as [Hc|(p' & z' & Hz' & Hlt)].
      - assert (i = j) by lia. subst i. destruct (nth_some _ xs (j - 1)) as (w & Hw); [lia|].
        specialize (Hzmax (j - 1) w (Nat.le_refl _) Hw). specialize (Hrmin (j - 1) w (Nat.le_refl _) Hw).
        exact (le_trans lt HW (snd rl_min) w z Hrmin Hzmax).
      - rewrite Hz in Hz'. inversion Hz'; subst. now apply (lt_asym lt HW). }
    rewrite E1.
    apply wp_bind.
    assert (forall b : bool,
      (b = true -> j = 1 \/ exists p w, nth_error cm (j - 2) = Some (p, w) /\ lt (snd rl_min) w = false) ->
      (b = false -> 2 <= j /\ exists p w, nth_error cm (j - 2) = Some (p, w) /\ lt (snd rl_min) w = true) ->
      wp (if negb b then ret (inr (inl (i, length pre + i - 1, rl_min, res))) else
          let res := Nat.max res (i - j) in
          let i := i - 1 in
          if i <=? res then ret (inr (inr res)) else
          let rl_it := length pre + S i - 1 - 1 in
          let* x := get rl_it in
          let rl_min := if comp (proj x) (proj (snd rl_min)) then (rl_it, x) else rl_min in
          ret (inl (i, rl_it, rl_min, res)))
       (fun r m' => match r with
         | inl s' => (let '(i, rl_it, rl_min, res) := s' in rl_it = length pre + i - 1 /\ 1 <= i <= length xs /\ res < i /\
             min_from xs (i - 1) (snd rl_min) /\ dis_sound xs res /\
             (i <= j \/ exists p z, nth_error cm (j - 1) = Some (p, z) /\ lt (snd rl_min) z = true) /\
             (forall a b, inv_at lt xs a b -> i <= b -> b - a <= res) /\ m' = pre ++ map Val xs ++ post) /\
             (let '(i, rl_it, rl_min, res) := s' in i) < i
         | inr x => Q x m' end) (pre ++ map Val xs ++ post)) as K.
    { intros b Hbt Hbf. destruct b; simpl negb; cbv iota.
      2:{ destruct (Hbf eq_refl) as [H2 (p & w & Hw & Hlt)]. apply wp_ret. apply HQl; auto; try lia.
          - split; eauto.
          - right. exists p, w. auto. }
      cbv zeta. specialize (Hbt eq_refl).
      assert (dis_sound xs (Nat.max res (i - j))) as Hs'.
      { destruct (Nat.max_spec res (i - j)) as [[Hl ->]|[Hl ->]]; auto.
        right. destruct Hc as [Hc|(p' & z' & Hz' & Hlt)]; [lia|]. rewrite Hz in Hz'. inversion Hz'; subst p' z'.
        exists pm, pr. split; [|lia]. split; [lia|]. rewrite (less_pos_some lt xs pm pr z (snd rl_min)); auto. }
      assert (forall a b, inv_at lt xs a b -> i - 1 <= b -> b - a <= Nat.max res (i - j)) as Hb'.
      { intros a b Hab Hib. destruct (Nat.eq_dec b (i - 1)) as [->|]; [|specialize (Hb a b Hab ltac:(lia)); lia].
        destruct (Nat.le_gt_cases (j - 1) a) as [|La]; [lia|]. exfalso.
        destruct Hbt as [->|(p & w & Hw & Hlt)]; [lia|].
        destruct (Hcm _ _ _ Hw) as [_ Hwmax]. pose proof (inv_at_lt _ _ _ _ Hab). destruct Hab as [_ Hab].
        destruct (nth_some _ xs a) as (xa & Hxa); [lia|]. destruct (nth_some _ xs (i - 1)) as (xb & Hxb); [lia|].
        rewrite (less_pos_some lt xs a (i - 1) xa xb Hxa Hxb) in Hab.
        specialize (Hwmax a xa ltac:(lia) Hxa). specialize (Hrmin (i - 1) xb (Nat.le_refl _) Hxb).
        pose proof (le_trans lt HW xa w (snd rl_min) Hwmax Hlt) as H1.
        pose proof (le_trans lt HW xa (snd rl_min) xb H1 Hrmin) as H2. red in H2. congruence. }
      destruct (Nat.leb_spec (i - 1) (Nat.max res (i - j))) as [L|L].
      - apply wp_ret. rewrite <- (max_inversion_distance_spec lt xs (Nat.max res (i - j))); auto.
        intros a b Hab. destruct (Nat.le_gt_cases (i - 1) b) as [|Lb]; [now apply Hb'|].
        pose proof (inv_at_lt _ _ _ _ Hab). lia.
      - destruct (nth_some _ xs (i - 2)) as (x & Hx); [lia|]. apply wp_bind.
        replace (length pre + S (i - 1) - 1 - 1) with (length pre + (i - 2)) by lia.
        eapply wp_get_list; eauto. change (comp (proj x) (proj (snd rl_min))) with (lt x (snd rl_min)).
        apply wp_ret. split; [|lia]. cj; auto; try lia.
        + replace (i - 1 - 1) with (i - 2) by lia. destruct (lt x (snd rl_min)) eqn:El; simpl snd; split; eauto.
          * intros q y Hq Hy. destruct (Nat.eq_dec q (i - 2)) as [->|].
            -- rewrite Hx in Hy. inversion Hy; subst. apply (lt_irrefl lt HW).
            -- specialize (Hrmin q y ltac:(lia) Hy). apply (lt_asym lt HW). exact (lt_le_trans lt HW x (snd rl_min) y El Hrmin).
          * exists pr. split; auto. lia.
          * intros q y Hq Hy. destruct (Nat.eq_dec q (i - 2)) as [->|]; [congruence|]. apply (Hrmin q); auto. lia.
        + destruct Hc as [Hc|(p' & z' & Hz' & Hlt)]; [left; lia|]. right. exists p', z'. split; auto.
          destruct (lt x (snd rl_min)) eqn:El; simpl snd; auto. exact (lt_trans lt HW x (snd rl_min) z' El Hlt). }
    replace (length pre + i - 1 - 1) with (length pre + S (i - 1) - 1 - 1) by lia.
    destruct (Nat.eqb_spec j 1) as [->|Hj1].
    + apply wp_ret. eapply wp_mono; [apply (K true); auto; discriminate|]. intros [[[[? ?] ?] ?]|] m' H; exact H.
    + destruct (nth_some _ cm (j - 2)) as ([pw w] & Hw); [lia|]. apply wp_bind. eapply wp_rd; eauto. apply wp_ret. simpl snd.
      change (comp (proj (snd rl_min)) (proj w)) with (lt (snd rl_min) w).
      eapply wp_mono; [apply (K (negb (lt (snd rl_min) w)))|].
      * intros E. apply negb_true_iff in E. right. eauto.
      * intros E. apply negb_false_iff in E. split; [lia|]. eauto.
      * intros [[[[? ?] ?] ?]|] m' H; exact H.
Qed.

Lemma allocating_dis_wp : forall pre xs post (Q : nat -> mem A -> Prop),
  Q (max_inversion_distance lt xs) (pre ++ map Val xs ++ post) ->
  wp (allocating_dis comp proj (length pre) (length pre + length xs) (length xs)) Q (pre ++ map Val xs ++ post).
Proof.
  intros pre xs post Q HQ. unfold allocating_dis.
  destruct (Nat.ltb_spec (length xs) 2).
  { apply wp_ret. replace 0 with (max_inversion_distance lt xs); auto.
    apply max_inversion_distance_spec; auto. intros i j Hij. apply inv_at_lt in Hij. lia. }
  destruct (nth_some _ xs 0) as (x0 & Hx0); [lia|].
  apply wp_bind. replace (get (length pre)) with (@get A (length pre + 0)) by (f_equal; lia). eapply wp_get_list; eauto.
  apply wp_bind.
  apply wp_loop' with (mu := fun '(it, lr, back) => length pre + length xs - it)
    (I := fun '(it, lr, back) m => exists c, it = length pre + c /\ 1 <= c <= length xs /\ length lr = c /\
       max_upto xs (c - 1) (snd back) /\ (forall k p z, nth_error lr k = Some (p, z) -> max_upto xs k z) /\
       m = pre ++ map Val xs ++ post).
  - assert (max_upto xs 0 x0) as H0.
    { split; [exists 0; auto|]. intros q y Hq Hy. replace q with 0 in Hy by lia. rewrite Hx0 in Hy. inversion Hy; subst.
      apply (lt_irrefl lt HW). }
    exists 1. cj; auto; try lia. intros [|[|k]] p z Hk; simpl in Hk; inversion Hk; subst; auto.
  - lia.
  - intros [[it lr] back] m (c & -> & Hc & HL & Hback & Hlr & ->).
    destruct (Nat.eqb_spec (length pre + c) (length pre + length xs)) as [E|E].
    2:{ destruct (nth_some _ xs c) as (x & Hx); [lia|]. apply wp_bind. eapply wp_get_list; eauto. apply wp_ret. split; [|lia].
        change (comp (proj (snd back)) (proj x)) with (lt (snd back) x).
        assert (max_upto xs c (snd (if lt (snd back) x then (length pre + c, x) else back))) as Hb'.
        { destruct Hback as [(p & Hp & Hpb) Hmax]. destruct (lt (snd back) x) eqn:El; simpl snd; split; eauto.
          - intros q y Hq Hy. destruct (Nat.eq_dec q c) as [->|].
            + rewrite Hx in Hy. inversion Hy; subst. apply (lt_irrefl lt HW).
            + apply (lt_asym lt HW). apply (le_lt_trans lt HW) with (y := snd back); auto. red. apply (Hmax q); auto. lia.
          - exists p. split; auto. lia.
          - intros q y Hq Hy. destruct (Nat.eq_dec q c) as [->|]; [congruence|]. apply (Hmax q); auto. lia. }
        exists (S c). cj; auto; try lia.
        - lens.
        - simpl. rewrite Nat.sub_0_r. auto.
        - intros k p z Hk. destruct (Nat.lt_ge_cases k (length lr)).
          + rewrite nth_error_app1 in Hk by auto. eauto.
          + pose proof (nth_lt _ _ _ Hk) as HLk. rewrite app_length in HLk. simpl in HLk.
            rewrite nth_error_app2 in Hk by auto. replace (k - length lr) with 0 in Hk by lia. inversion Hk; subst.
            assert (k = length lr) as -> by lia. rewrite H2 in Hb'. exact Hb'. }
    apply wp_ret. assert (c = length xs) as -> by lia. clear E Hc Hback back.
    destruct (nth_some _ xs (length xs - 1)) as (yl & Hyl); [lia|].
    apply wp_bind. replace (length pre + length xs - 1) with (length pre + (length xs - 1)) by lia. eapply wp_get_list; eauto.
    apply wp_loop' with (mu := fun '(j, i, rl_it, rl_min, res) => j)
      (I := fun '(j, i, rl_it, rl_min, res) m => rl_it = length pre + i - 1 /\ 1 <= j <= length xs /\ 1 <= i <= length xs /\ res < i /\
         min_from xs (i - 1) (snd rl_min) /\ dis_sound xs res /\
         (i <= j \/ exists p z, nth_error lr (j - 1) = Some (p, z) /\ lt (snd rl_min) z = true) /\
         (forall a b, inv_at lt xs a b -> i <= b -> b - a <= res) /\ m = pre ++ map Val xs ++ post).
    + cj; auto; try lia.
      * split; simpl snd. { exists (length xs - 1). auto. }
        intros q y Hq Hy. pose proof (nth_lt _ _ _ Hy). replace q with (length xs - 1) in Hy by lia.
        rewrite Hyl in Hy. inversion Hy; subst. apply (lt_irrefl lt HW).
      * left; auto.
      * intros a b Hab Hb. apply inv_at_lt in Hab. lia.
    + lia.
    + intros [[[[j i] rl_it] rl_min] res] m (-> & Hj & Hi & Hri & Hmin & Hs & Hcc & Hb & ->).
      destruct (Nat.eqb_spec j 0); [lia|]. apply wp_bind. eapply dis_while_wp; eauto.
      * intros i' rl_min' res' H2 Hi' Hri' Hmin' Hs' Hcc' Hb'. cbv beta iota; apply wp_ret. split; [|lia].
        cj; auto; try lia. replace (j - 1 - 1) with (j - 2) by lia. auto.
Qed.

Lemma probe_dis_wp : forall cat alloc_ok pre xs post (Q : nat -> mem A -> Prop),
  Q (max_inversion_distance lt xs) (pre ++ map Val xs ++ post) ->
  wp (probe_dis comp proj cat alloc_ok (length pre) (length pre + length xs)) Q (pre ++ map Val xs ++ post).
Proof.
  intros cat ok pre xs post Q HQ. unfold probe_dis.
  replace (length pre + length xs - length pre) with (length xs) by lia.
  destruct cat; try (now apply inplace_dis_wp); destruct (negb (length xs <? 2) && negb ok);
    (now apply inplace_dis_wp) || (now apply allocating_dis_wp).
Qed.
End Dis.
