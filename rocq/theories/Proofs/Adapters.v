(** Proofs about the adapters. *)
From Coq Require Import List Arith Lia Permutation Bool.
From Verif Require Import Spec.Order Lang.Mem Spec.Sorts Proofs.Wp Proofs.OrderLib Model.Indirect Proofs.Indirect
  Model.Adapters.
Import ListNotations.

(** * Associations *)
Section Association.
Context {A D : Type}.

(** The memory of pairs [z] describes the associations of [s]. *)
Definition assoc_rel (first : nat) (s : mem A * mem D) (z : mem (A * D)) : Prop :=
  length z = length (snd s) /\
  forall k c, nth_error z k = Some c ->
    match c with
    | Val (a, d) => nth_error (fst s) (first + k) = Some (Val a) /\ nth_error (snd s) k = Some (Val d)
    | Moved => nth_error (fst s) (first + k) = Some Moved /\ nth_error (snd s) k = Some Moved
    | Raw => False
    end.

(** The collection is unchanged outside of the associated positions. *)
Definition assoc_frame (first n : nat) (m m' : mem A) : Prop := same_out first (first + n) m m'.

Definition simulates {X Y} (first : nat) (c : AM (A := A) (D := D) X) (d : M (A * D) Y) (R : X -> Y -> Prop) : Prop :=
  forall s z y z', assoc_rel first s z -> d z = Ok y z' ->
    exists x s', c s = AOk x s' /\ R x y /\ assoc_rel first s' z' /\
      same_out first (first + length z) (fst s) (fst s').

Lemma rel_upd : forall first m v z k (c : cell A) (d : cell D) e,
  assoc_rel first (m, v) z -> k < length z ->
  match e with
  | Val (a, x) => c = Val a /\ d = Val x
  | Moved => c = Moved /\ d = Moved
  | Raw => False
  end ->
  assoc_rel first (upd (first + k) c m, upd k d v) (upd k e z).
Proof.
  intros first m v z k c d e [HL HR] Hk He. simpl in HL. split.
  { simpl. now rewrite !upd_length. }
  intros j c' Hj. simpl.
  assert (first + k < length m) as Hm.
  { destruct (nth_error z k) as [c0|] eqn:E; [|apply nth_error_None in E; lia].
    apply HR in E. destruct c0 as [| |[a x]]; simpl in E; [tauto| |]; destruct E as [E _]; now apply nth_lt in E. }
  destruct (Nat.eq_dec k j) as [<-|Hne].
  - rewrite nth_upd_eq in Hj by lia. inversion Hj; subst c'. rewrite !nth_upd_eq by lia.
    destruct e as [| |[a x]]; auto; destruct He as [-> ->]; auto.
  - rewrite nth_upd_ne in Hj by lia. apply HR in Hj. simpl in Hj.
    rewrite !nth_upd_ne by lia. exact Hj.
Qed.

Lemma assoc_get_sim : forall first k, simulates first (assoc_get first k) (get k) eq.
Proof.
  intros first k [m v] z y z' HR E. unfold get in E.
  destruct (nth_error z k) as [[| |[a d]]|] eqn:Ez; try discriminate. inversion E; subst.
  pose proof (proj2 HR _ _ Ez) as [Ha Hd]. simpl in Ha, Hd.
  exists (a, d), (m, v). unfold assoc_get, both, get. rewrite Ha, Hd. cj; auto using same_out_refl.
Qed.
Lemma assoc_take_sim : forall first k, simulates first (assoc_take first k) (take k) eq.
Proof.
  intros first k [m v] z y z' HR E. unfold take in E.
  destruct (nth_error z k) as [[| |[a d]]|] eqn:Ez; try discriminate. inversion E; subst.
  pose proof (proj2 HR _ _ Ez) as [Ha Hd]. simpl in Ha, Hd. pose proof (nth_lt _ _ _ Ez).
  exists (a, d), (upd (first + k) Moved m, upd k Moved v). unfold assoc_take, both, take. rewrite Ha, Hd. cj; auto.
  - apply rel_upd; auto.
  - apply same_out_upd. lia.
Qed.
Lemma assoc_put_sim : forall first k e, simulates first (assoc_put first k e) (put k e) (fun _ _ => True).
Proof.
  intros first k [a d] [m v] z y z' HR E. unfold put in E.
  destruct (nth_error z k) as [c|] eqn:Ez; try discriminate.
  pose proof (proj2 HR _ _ Ez) as H. simpl in H. pose proof (nth_lt _ _ _ Ez).
  exists (tt, tt), (upd (first + k) (Val a) m, upd k (Val d) v).
  assert (c <> Raw) as HcR by (intros ->; tauto).
  assert (z' = upd k (Val (a, d)) z) as -> by (destruct c as [| |[? ?]]; congruence).
  unfold assoc_put, both, put. cj; auto.
  - destruct c as [| |[a' d']]; [congruence| |]; destruct H as [-> ->]; reflexivity.
  - apply rel_upd; auto.
  - apply same_out_upd. lia.
Qed.
Lemma assoc_move_to_sim : forall first i j,
  simulates first (assoc_move_to first i j) (move_to i j) (fun _ _ => True).
Proof.
  intros first i j [m v] z y z' HR E. unfold move_to in E.
  destruct (Nat.eqb_spec i j) as [|Hij]; [discriminate|]. unfold bind in E.
  destruct (take i z) as [x z1| |] eqn:E1; try discriminate.
  destruct (assoc_take_sim first i (m, v) z x z1 HR E1) as (x' & [m1 v1] & EA & <- & HR1 & HO1).
  destruct (assoc_put_sim first j x' (m1, v1) z1 y z' HR1 E) as (u & s2 & EB & _ & HR2 & HO2).
  exists (tt, tt), s2. cj; auto.
  - unfold assoc_move_to, both, move_to. destruct (Nat.eqb_spec (first + i) (first + j)); [lia|].
    destruct (Nat.eqb_spec i j); [lia|]. unfold assoc_take, both in EA. unfold bind.
    destruct (take (first + i) m) as [a m1'| |] eqn:Ea; try discriminate.
    destruct (take i v) as [d v1'| |] eqn:Ed; try discriminate. inversion EA; subst.
    unfold assoc_put, both in EB. simpl in EB.
    destruct (put (first + j) a m1) as [[] m2| |] eqn:Ea2; try discriminate.
    destruct (put j d v1) as [[] v2| |] eqn:Ed2; try discriminate. now inversion EB.
  - eapply same_out_trans; [exact HO1|].
    assert (length z1 = length z) as <-; [|exact HO2].
    unfold take in E1. destruct (nth_error z i) as [[| |e]|]; try discriminate. inversion E1. apply upd_length.
Qed.
Lemma assoc_swap_sim : forall first i j,
  simulates first (assoc_swap first i j) (swap i j) (fun _ _ => True).
Proof.
  intros first i j [m v] z y z' HR E. unfold swap in E.
  destruct (nth_error z i) as [[| |[a d]]|] eqn:Ei; try discriminate.
  destruct (nth_error z j) as [[| |[b e]]|] eqn:Ej; try discriminate. inversion E; subst.
  pose proof (proj2 HR _ _ Ei) as [Ha Hd]. pose proof (proj2 HR _ _ Ej) as [Hb He]. simpl in Ha, Hd, Hb, He.
  pose proof (nth_lt _ _ _ Ei). pose proof (nth_lt _ _ _ Ej).
  exists (tt, tt), (upd (first + j) (Val a) (upd (first + i) (Val b) m), upd j (Val d) (upd i (Val e) v)).
  unfold assoc_swap, both, swap. rewrite Ha, Hb, Hd, He. cj; auto.
  - apply rel_upd; auto. apply rel_upd; auto. rewrite upd_length; auto.
  - simpl. eapply same_out_trans; apply same_out_upd; lia.
Qed.
End Association.

(** * Sorting associations *)
Section WithAssociations.
Context {A D : Type}.

Lemma wp_with_associations : forall (R : list (A * D) -> list (A * D) -> Prop) sorter pre xs post data
    (Q : unit -> mem A -> Prop),
  (forall v v', R v v' -> Permutation v v') ->
  length data = length xs -> runs R sorter ->
  (forall v, R (combine xs data) v -> Q tt (pre ++ map Val (map fst v) ++ post)) ->
  wp (with_associations (length pre) data sorter) Q (pre ++ map Val xs ++ post).
Proof.
  intros R sorter pre xs post data Q HRP HL HR HQ. unfold wp, with_associations.
  rewrite HL. rewrite skipn_app, skipn_all, Nat.sub_diag. simpl.
  rewrite firstn_app, map_length, Nat.sub_diag, firstn_O, app_nil_r.
  rewrite firstn_all2 by (rewrite map_length; lia). rewrite values_map, Nat.eqb_refl.
  assert (length (combine xs data) = length xs) as HC by (rewrite combine_length; lia).
  destruct (HR [] (combine xs data) []) as (v & Ev & Hv). simpl in Ev. rewrite !app_nil_r, HC in Ev. rewrite Ev.
  pose proof (Permutation_length (HRP _ _ Hv)) as HLv.
  rewrite map_length, <- HLv, HC, Nat.eqb_refl.
  replace (firstn (length pre) (pre ++ map Val xs ++ post)) with pre.
  2:{ rewrite firstn_app, firstn_all, Nat.sub_diag. simpl. now rewrite app_nil_r. }
  replace (skipn (length pre + length xs) (pre ++ map Val xs ++ post)) with post.
  2:{ rewrite app_assoc, skipn_app. rewrite skipn_all2 by (rewrite app_length, map_length; lia).
      rewrite app_length, map_length. now rewrite Nat.sub_diag. }
  replace (map fst_cell (map Val v)) with (map (@Val A) (map fst v)); auto.
  rewrite !map_map. apply map_ext. intros [a d]. reflexivity.
Qed.
Lemma combine_fst : forall (xs : list A) (ds : list D), length ds = length xs -> map fst (combine xs ds) = xs.
Proof. induction xs; destruct ds; simpl; intros; try lia; auto. f_equal. auto. Qed.
End WithAssociations.

(** * schwartz_adapter *)
Section Schwartz.
Context {A T : Type} (comp : T -> T -> bool) (proj : A -> T).

Lemma schwartz_wp : forall (R : list (A * T) -> list (A * T) -> Prop) inner pre xs post (Q : list A -> mem A -> Prop),
  (forall v v', R v v' -> Permutation v v') ->
  runs R (inner comp snd) ->
  (forall v, R (combine xs (map proj xs)) v -> Q xs (pre ++ map Val (map fst v) ++ post)) ->
  wp (sort_with_schwartz inner comp proj (length pre) (length xs)) Q (pre ++ map Val xs ++ post).
Proof.
  intros R inner pre xs post Q HRP HR HQ. unfold sort_with_schwartz.
  apply wp_bind.
  eapply wp_loop' with (mu := fun '(count, _, _, _) => length xs - count)
    (I := fun '(count, first, projected, calls) m => exists done todo, xs = done ++ todo /\
       count = length done /\ first = length pre + length done /\
       projected = map proj done /\ calls = done /\ m = pre ++ map Val xs ++ post).
  - exists [], xs. cj; auto.
  - lia.
  - intros [[[count first] projected] calls] m (done & todo & Ex & -> & -> & -> & -> & ->).
    destruct (Nat.eqb_spec (length done) (length xs)) as [E|E].
    + apply wp_ret. assert (todo = []) as -> by (subst xs; destruct todo; [auto|lens]).
      rewrite app_nil_r in Ex. subst done.
      apply wp_bind. eapply wp_with_associations; eauto. { now rewrite map_length. }
    + destruct todo as [|a todo]. { subst xs. rewrite app_nil_r in E. lia. }
      apply wp_bind. eapply wp_get. { rewrite Ex. apply nth_split_at. }
      apply wp_ret. split; [|subst xs; lens]. exists (done ++ [a]), todo. cj; auto.
      * now rewrite <- app_assoc.
      * lens.
      * lens.
      * now rewrite map_app.
Qed.

Lemma combine_map_self : forall xs : list A, combine xs (map proj xs) = map (fun x => (x, proj x)) xs.
Proof. induction xs; simpl; auto. f_equal. auto. Qed.

(** Sorting the pairs by their second component sorts the elements. *)
Lemma schwartz_sorting : forall xs v,
  is_sorting_of (by_proj comp snd) (combine xs (map proj xs)) v -> is_sorting_of (by_proj comp proj) xs (map fst v).
Proof.
  intros xs v H. rewrite combine_map_self in H. pose proof H as [HP HS].
  apply Permutation_sym, Permutation_map_inv in HP as (u & -> & HP).
  rewrite map_map. simpl. change (map (fun x => x) u) with (map id u). rewrite map_id. split; auto.
  intros i j x y Hij Hi Hj.
  apply (HS i j (x, proj x) (y, proj y) Hij); now apply (map_nth_error (fun x => (x, proj x))).
Qed.
Lemma schwartz_stable_sorting : forall xs v,
  is_stable_sorting_of (by_proj comp snd) (combine xs (map proj xs)) v ->
  is_stable_sorting_of (by_proj comp proj) xs (map fst v).
Proof.
  intros xs v (HP & HS & HO).
  destruct (schwartz_sorting xs v (conj HP HS)) as [HP' HS']. split; auto. split; auto.
  rewrite combine_map_self in HP, HO.
  apply Permutation_sym, Permutation_map_inv in HP as (u & -> & HP).
  rewrite map_map. simpl. change (map (fun x => x) u) with (map id u). rewrite map_id.
  intros x. specialize (HO (x, proj x)). rewrite !filter_map_comm in HO.
  apply (f_equal (map fst)) in HO. rewrite !map_map in HO. simpl in HO.
  change (fun e : A => e) with (@id A) in HO. rewrite !map_id in HO. exact HO.
Qed.
End Schwartz.

(** * make_stable *)
Section Stable.
Context {A T : Type} (comp : T -> T -> bool) (proj : A -> T).
Hypothesis HC : strict_weak_order comp.
Notation lt := (by_proj comp proj).
Notation slt := (stable_compare comp proj).

Definition snd_lt (a b : A * nat) : bool := snd a <? snd b.

Lemma stable_compare_spec : forall x y, slt x y = true <->
  lt (fst x) (fst y) = true \/ (lt (fst x) (fst y) = false /\ lt (fst y) (fst x) = false /\ snd x < snd y).
Proof.
  intros [a i] [b j]. unfold stable_compare, by_proj. simpl.
  destruct (comp (proj a) (proj b)) eqn:E1; [intuition|].
  destruct (comp (proj b) (proj a)) eqn:E2; [intuition; try discriminate|].
  rewrite Nat.ltb_lt. intuition; try discriminate.
Qed.
Let HW : strict_weak_order lt := swo_by_proj _ _ comp proj HC.

Lemma stable_compare_swo : strict_weak_order slt.
Proof.
  assert (forall x y, slt x y = false <-> le lt (fst y) (fst x) /\ (le lt (fst x) (fst y) -> snd y <= snd x)) as NF.
  { intros x y. rewrite <- not_true_iff_false, stable_compare_spec. unfold le.
    destruct (lt (fst x) (fst y)) eqn:E1.
    - split; [tauto|]. intros [? ?]. discriminate.
    - destruct (lt (fst y) (fst x)) eqn:E2; split.
      + intros _. split; auto. discriminate.
      + intros [_ ?] [?|(? & ? & ?)]; discriminate.
      + intros H. split; auto. intros _. destruct (Nat.le_gt_cases (snd y) (snd x)); auto. exfalso. apply H. auto.
      + intros [_ H] [?|(_ & _ & ?)]; [discriminate|]. specialize (H eq_refl). lia. }
  constructor.
  - intros x. apply NF. split; [apply le_refl; auto|lia].
  - intros x y z H1 H2. apply stable_compare_spec in H1, H2. apply stable_compare_spec.
    destruct H1 as [H1|(H1a & H1b & H1c)], H2 as [H2|(H2a & H2b & H2c)].
    + left. eapply lt_trans; eauto.
    + left. eapply lt_le_trans; eauto.
    + left. eapply le_lt_trans; eauto.
    + right. split; [eapply (le_trans lt HW); eauto|]. split; [eapply (le_trans lt HW); eauto|lia].
  - intros x y z H1 H2 H3 H4. apply NF in H1, H2, H3, H4.
    destruct H1 as [? I1], H2 as [? I2], H3 as [? I3], H4 as [? I4].
    specialize (I1 ltac:(assumption)). specialize (I2 ltac:(assumption)).
    specialize (I3 ltac:(assumption)). specialize (I4 ltac:(assumption)).
    split; apply NF; split; try lia; eapply (le_trans lt HW); eauto.
Qed.

(** Sorting the elements paired with their positions is sorting stably. *)
Lemma stable_compare_sorting : forall xs v,
  is_sorting_of slt (combine xs (seq 0 (length xs))) v -> is_stable_sorting_of lt xs (map fst v).
Proof.
  intros xs v [HP HS].
  assert (Permutation xs (map fst v)) as HP'.
  { rewrite <- HP. rewrite combine_fst; auto. now rewrite seq_length. }
  assert (forall x y, slt x y = false -> lt (fst x) (fst y) = false) as Hle.
  { intros x y H. destruct (lt (fst x) (fst y)) eqn:E; auto.
    assert (slt x y = true) by (apply stable_compare_spec; auto). congruence. }
  split; auto. split.
  - intros i j x y Hij Hi Hj. rewrite nth_error_map in Hi, Hj.
    destruct (nth_error v i) eqn:Ei; inversion Hi; subst. destruct (nth_error v j) eqn:Ej; inversion Hj; subst.
    apply Hle. eapply HS; eauto.
  - intros x. rewrite filter_map_comm.
    rewrite <- (combine_fst xs (seq 0 (length xs))) at 1 by (now rewrite seq_length).
    rewrite filter_map_comm. f_equal.
    set (P := fun e : A * nat => equivalent lt x (fst e)).
    (* both lists have the same elements, in the order of their second components *)
    assert (forall l, NoDup (map snd l) -> (forall i j a b, i < j -> nth_error l i = Some a -> nth_error l j = Some b ->
              P a = true -> P b = true -> snd a < snd b) ->
            forall l', Permutation l l' -> (forall i j a b, i < j -> nth_error l' i = Some a -> nth_error l' j = Some b ->
              P a = true -> P b = true -> snd a < snd b) -> filter P l' = filter P l) as K.
    { clear. intros l _ Hl l' HP Hl'.
      assert (forall l, (forall i j a b, i < j -> nth_error l i = Some a -> nth_error l j = Some b ->
              P a = true -> P b = true -> snd a < snd b) -> sorted snd_lt (filter P l) /\
               NoDup (map snd (filter P l))) as S.
      { clear. induction l as [|a l IH]; intros H.
        - split; [apply sorted_nil|constructor].
        - destruct IH as [IS IN]. { intros i j x1 y1 Hij Hi Hj. apply (H (S i) (S j)); auto. lia. }
          simpl. destruct (P a) eqn:Ea; auto.
          assert (forall b, In b (filter P l) -> snd a < snd b) as Hab.
          { intros b Hb. apply filter_In in Hb as [Hb HPb]. apply In_nth_error in Hb as (k & Hk).
            apply (H 0 (S k)); auto. lia. }
          split.
          + apply sorted_cons. split; auto. intros b Hb. apply Hab in Hb. unfold le, snd_lt. apply Nat.ltb_ge. lia.
          + simpl. constructor; auto. intros HI. apply in_map_iff in HI as (b & E & Hb). apply Hab in Hb. lia. }
      destruct (S l Hl) as [S1 N1]. destruct (S l' Hl') as [S2 N2].
      assert (Permutation (filter P l) (filter P l')) as HPf.
      { clear - HP. induction HP as [|e l1 l2 HP IH|e f l1|l1 l2 l3 HP1 IH1 HP2 IH2]; simpl; auto.
        - destruct (P e); auto.
        - destruct (P e), (P f); auto. constructor.
        - etransitivity; eauto. }
      assert (strict_weak_order snd_lt) as HWs.
      { constructor; unfold snd_lt; intros; rewrite ?Nat.ltb_ge, ?Nat.ltb_lt in *; lia. }
      apply stable_unique with (lt := snd_lt); auto.
      (* each class has at most one element *)
      assert (forall l, NoDup (map snd l) -> forall e, In e l -> filter (equivalent snd_lt e) l = [e]) as U.
      { clear. induction l as [|b l IH]; intros HN e HI; [destruct HI|].
        inversion HN as [|? ? Hni HN']; subst. simpl.
        assert (equivalent snd_lt e b = (snd e =? snd b)) as ->.
        { unfold equivalent, snd_lt. destruct (Nat.eqb_spec (snd e) (snd b)) as [-> |Hne].
          - now rewrite Nat.ltb_irrefl.
          - destruct (Nat.ltb_spec (snd e) (snd b)); auto. destruct (Nat.ltb_spec (snd b) (snd e)); auto. lia. }
        destruct HI as [->|HI].
        - rewrite Nat.eqb_refl. f_equal.
          destruct (filter _ l) as [|c r] eqn:Ef; auto. exfalso.
          assert (In c (filter (equivalent snd_lt e) l)) as Hc by (rewrite Ef; simpl; auto).
          apply filter_In in Hc as [Hc He]. unfold equivalent, snd_lt in He.
          apply andb_true_iff in He as [H1 H2]. rewrite negb_true_iff, Nat.ltb_ge in H1, H2.
          apply Hni. apply in_map_iff. exists c. split; auto. lia.
        - destruct (Nat.eqb_spec (snd e) (snd b)) as [E|_]; [|auto].
          exfalso. apply Hni. rewrite <- E. now apply in_map. }
      intros e. destruct (filter (equivalent snd_lt e) (filter P l)) as [|c r] eqn:E.
      - destruct (filter (equivalent snd_lt e) (filter P l')) as [|c' r'] eqn:E'; auto. exfalso.
        assert (In c' (filter (equivalent snd_lt e) (filter P l))) as HI.
        { assert (In c' (filter (equivalent snd_lt e) (filter P l'))) as HI by (rewrite E'; simpl; auto).
          apply filter_In in HI as [HI Hc]. apply filter_In. split; auto.
          eapply Permutation_in; [symmetry; eauto|auto]. }
        rewrite E in HI. destruct HI.
      - assert (In c (filter (equivalent snd_lt e) (filter P l))) as HI by (rewrite E; simpl; auto).
        apply filter_In in HI as [HI Hc].
        rewrite (filter_ext _ _ (eqv_ext _ HWs _ _ Hc)) in E |- *.
        rewrite U in E; auto. rewrite <- E. symmetry. apply U; auto. eapply Permutation_in; eauto. }
    assert (map snd (combine xs (seq 0 (length xs))) = seq 0 (length xs)) as Es.
    { clear. generalize 0. induction xs; intros k; simpl; auto. f_equal. auto. }
    assert (NoDup (map snd (combine xs (seq 0 (length xs))))) as HN by (rewrite Es; apply seq_NoDup).
    apply K; auto.
    + intros i j a b Hij Hi Hj _ _.
      apply (map_nth_error snd) in Hi, Hj. rewrite Es in Hi, Hj.
      assert (forall i k, nth_error (seq 0 (length xs)) i = Some k -> k = i) as Hs.
      { intros i' k Hk. pose proof (nth_lt _ _ _ Hk) as Hlt. rewrite seq_length in Hlt.
        rewrite (nth_error_nth' _ 0) in Hk by (now rewrite seq_length). rewrite seq_nth in Hk by auto.
        inversion Hk. lia. }
      apply Hs in Hi, Hj. lia.
    + intros i j a b Hij Hi Hj HPa HPb.
      pose proof (HS i j a b Hij Hi Hj) as Hba.
      assert (equivalent lt (fst a) (fst b) = true) as Hab.
      { unfold P in HPa, HPb. rewrite (eqv_sym lt) in HPa. eapply (eqv_trans lt HW); eauto. }
      apply eqv_spec in Hab as [Hab1 Hab2]. unfold le in Hab1, Hab2.
      assert (snd a <= snd b).
      { destruct (Nat.le_gt_cases (snd a) (snd b)); auto. exfalso.
        assert (slt b a = true) by (apply stable_compare_spec; auto). congruence. }
      assert (snd a <> snd b); [|lia].
      intros E. assert (NoDup (map snd v)) as HNv.
      { eapply Permutation_NoDup; [apply (Permutation_map snd HP)|auto]. }
      apply (map_nth_error snd) in Hi, Hj. rewrite E in Hi.
      assert (i = j); [|lia].
      apply (proj1 (NoDup_nth_error (map snd v)) HNv); [eapply nth_lt; eauto|congruence].
Qed.

Lemma make_stable_wp : forall (R : list (A * nat) -> list (A * nat) -> Prop) inner pre xs post (Q : unit -> mem A -> Prop),
  (forall v v', R v v' -> Permutation v v') ->
  runs R (inner slt) ->
  (forall v, R (combine xs (seq 0 (length xs))) v -> Q tt (pre ++ map Val (map fst v) ++ post)) ->
  wp (make_stable inner comp proj (length pre) (length pre + length xs)) Q (pre ++ map Val xs ++ post).
Proof.
  intros R inner pre xs post Q HRP HR HQ. unfold make_stable.
  replace (length pre + length xs - length pre) with (length xs) by lia. cbv zeta.
  apply wp_bind.
  eapply wp_loop' with (mu := fun '(count, _) => length xs - count)
    (I := fun '(count, its) m => count <= length xs /\ its = seq 0 count /\ m = pre ++ map Val xs ++ post).
  - cj; auto. lia.
  - lia.
  - intros [count its] m (Hc & -> & ->).
    destruct (Nat.eqb_spec count (length xs)) as [->|E].
    + apply wp_ret. eapply wp_with_associations; eauto. apply seq_length.
    + apply wp_ret. split; [|lia]. cj; auto; [lia|]. now rewrite seq_S.
Qed.

Lemma make_stable_sorts : forall inner : (A * nat -> A * nat -> bool) -> range_prog (A * nat),
  (forall c, strict_weak_order c -> sorts c (inner c)) ->
  sorts_stably lt (make_stable inner comp proj).
Proof.
  intros inner HI pre xs post.
  assert (wp (make_stable inner comp proj (length pre) (length pre + length xs))
    (fun _ m => exists ys, m = pre ++ map Val ys ++ post /\ is_stable_sorting_of lt xs ys)
    (pre ++ map Val xs ++ post)) as H.
  { eapply make_stable_wp with (R := is_sorting_of slt).
    - intros v v' []; auto.
    - apply HI, stable_compare_swo.
    - intros v Hv. exists (map fst v). split; auto. now apply stable_compare_sorting. }
  apply wp_ok in H as ([] & m & E & ys & -> & H). eauto.
Qed.
End Stable.

(** * out_of_place_adapter *)
Section OutOfPlace.
Context {A : Type}.

Lemma insert_back_wp : forall pre (xs : list A) post (Q : nat -> mem A -> Prop),
  Q (length (pre ++ map Val xs ++ post) + length xs) (pre ++ repeat Moved (length xs) ++ post ++ map Val xs) ->
  wp (insert_back (length pre) (length pre + length xs) (length (pre ++ map Val xs ++ post))) Q
    (pre ++ map Val xs ++ post ++ repeat Raw (length xs)).
Proof.
  intros pre xs post Q HQ. unfold insert_back. rewrite app_length, app_length, map_length.
  replace (length pre + length xs - length pre) with (length xs) by lia.
  eapply wp_loop' with (mu := fun '(first, _) => length pre + length xs - first)
    (I := fun '(first, writer) m => exists done todo, xs = done ++ todo /\ first = length pre + length done /\
       writer = length pre + (length xs + length post) + length done /\
       m = pre ++ repeat Moved (length done) ++ map Val todo ++ post ++ map Val done ++ repeat Raw (length todo)).
  - exists [], xs. cj; simpl; auto; lia.
  - lia.
  - intros [first writer] m (done & todo & Ex & -> & -> & ->).
    destruct (Nat.eqb_spec (length pre + length done) (length pre + length xs)) as [E|E].
    + apply wp_ret. assert (todo = []) as -> by (subst xs; destruct todo; [auto|lens]).
      rewrite app_nil_r in Ex. subst done.
      rewrite app_length, app_length, map_length in HQ. simpl. rewrite app_nil_r. exact HQ.
    + destruct todo as [|a todo]. { subst xs. rewrite app_nil_r in E. lia. }
      apply wp_bind.
      reshape ((pre ++ repeat Moved (length done)) ++ Val a :: map Val todo ++ post ++ map Val done ++ repeat Raw (length (a :: todo))).
      replace (length pre + length done) with (length (pre ++ repeat (@Moved A) (length done))) by lens.
      eapply wp_take; [apply nth_mid|]. rewrite upd_mid.
      apply wp_bind.
      reshape ((pre ++ repeat Moved (length done) ++ Moved :: map Val todo ++ post ++ map Val done) ++ Raw :: repeat Raw (length todo)).
      replace (length pre + (length xs + length post) + length done) with
        (length (pre ++ repeat Moved (length done) ++ Moved :: map Val todo ++ post ++ map Val done)) by (subst xs; lens).
      eapply wp_construct; [apply nth_mid|]. rewrite upd_mid.
      apply wp_ret. split; [|subst xs; lens].
      exists (done ++ [a]), todo. cj.
      * now rewrite <- app_assoc.
      * lens.
      * subst xs; lens.
      * rewrite app_length. simpl length. rewrite repeat_app, map_app. simpl.
        solve_app.
Qed.

Lemma std_move_back_wp : forall pre (ys : list A) post (Q : nat -> mem A -> Prop),
  Q (length pre + length ys) (pre ++ map Val ys ++ post ++ repeat Moved (length ys)) ->
  wp (std_move (length pre + length ys + length post) (length pre + length ys + length post + length ys) (length pre)) Q
    (pre ++ repeat Moved (length ys) ++ post ++ map Val ys).
Proof.
  intros pre ys post Q HQ. unfold std_move.
  replace (length pre + length ys + length post + length ys - (length pre + length ys + length post)) with (length ys) by lia.
  eapply wp_loop' with (mu := fun '(first, _) => length pre + length ys + length post + length ys - first)
    (I := fun '(first, result) m => exists done todo, ys = done ++ todo /\
       first = length pre + length ys + length post + length done /\ result = length pre + length done /\
       m = pre ++ map Val done ++ repeat Moved (length todo) ++ post ++ repeat Moved (length done) ++ map Val todo).
  - exists [], ys. cj; simpl; auto; lia.
  - lia.
  - intros [first result] m (done & todo & Ey & -> & -> & ->).
    destruct (Nat.eqb_spec (length pre + length ys + length post + length done) (length pre + length ys + length post + length ys)) as [E|E].
    + apply wp_ret. assert (todo = []) as -> by (subst ys; destruct todo; [auto|lens]).
      rewrite app_nil_r in Ey. subst done. simpl. rewrite app_nil_r. exact HQ.
    + destruct todo as [|a todo]. { subst ys. rewrite app_nil_r in E. lia. }
      apply wp_bind.
      eapply wp_move_to with (a := a) (c := Moved); try discriminate.
      * subst ys. lens.
      * replace (pre ++ map Val done ++ repeat Moved (length (a :: todo)) ++ post ++ repeat Moved (length done) ++ map Val (a :: todo))
          with ((pre ++ map Val done ++ repeat Moved (length (a :: todo)) ++ post ++ repeat Moved (length done)) ++ Val a :: map Val todo) by solve_app.
        replace (length pre + length ys + length post + length done) with
          (length (pre ++ map Val done ++ repeat Moved (length (a :: todo)) ++ post ++ repeat (@Moved A) (length done))) by (subst ys; lens).
        apply nth_mid.
      * replace (length pre + length done) with (length (pre ++ map Val done)) by lens.
        rewrite (app_assoc pre). simpl repeat. simpl app. apply nth_mid.
      * replace (upd _ _ _) with (pre ++ map Val (done ++ [a]) ++ repeat Moved (length todo) ++ post ++ repeat Moved (length (done ++ [a])) ++ map Val todo).
        { apply wp_ret. split; [|subst ys; lens]. exists (done ++ [a]), todo. cj; auto; [rewrite <- app_assoc; exact Ey|subst ys; lens|lens]. }
        replace (pre ++ map Val done ++ repeat Moved (length (a :: todo)) ++ post ++ repeat Moved (length done) ++ map Val (a :: todo))
          with ((pre ++ map Val done ++ repeat Moved (length (a :: todo)) ++ post ++ repeat Moved (length done)) ++ Val a :: map Val todo) by solve_app.
        replace (length pre + length ys + length post + length done) with
          (length (pre ++ map Val done ++ repeat Moved (length (a :: todo)) ++ post ++ repeat (@Moved A) (length done))) by (subst ys; lens).
        rewrite upd_mid.
        replace ((pre ++ map Val done ++ repeat Moved (length (a :: todo)) ++ post ++ repeat Moved (length done)) ++ Moved :: map Val todo)
          with ((pre ++ map Val done) ++ Moved :: repeat Moved (length todo) ++ post ++ repeat Moved (length done) ++ Moved :: map Val todo)
          by (simpl; solve_app).
        replace (length pre + length done) with (length (pre ++ map Val done)) by lens.
        rewrite upd_mid. rewrite app_length. simpl length. rewrite repeat_app, map_app. simpl. solve_app.
Qed.

Lemma destroy_range_wp : forall pre n (Q : unit -> mem A -> Prop),
  Q tt (pre ++ repeat Raw n) ->
  wp (destroy_range (length pre) (length pre + n)) Q (pre ++ repeat Moved n).
Proof.
  intros pre n Q HQ. unfold destroy_range. replace (length pre + n - length pre) with n by lia.
  eapply wp_loop' with (mu := fun first => length pre + n - first)
    (I := fun first m => exists k, k <= n /\ first = length pre + k /\ m = pre ++ repeat Raw k ++ repeat Moved (n - k)).
  - exists 0. cj; auto; try lia. simpl. now rewrite Nat.sub_0_r.
  - lia.
  - intros first m (k & Hk & -> & ->).
    destruct (Nat.eqb_spec (length pre + k) (length pre + n)) as [E|E].
    + apply wp_ret. replace k with n by lia. rewrite Nat.sub_diag. simpl. now rewrite app_nil_r.
    + apply wp_bind. destruct (n - k) as [|j] eqn:Ej; [lia|]. simpl repeat.
      rewrite app_assoc. replace (length pre + k) with (length (pre ++ repeat (@Raw A) k)) by lens.
      eapply wp_destroy; [apply nth_mid|discriminate|]. rewrite upd_mid. apply wp_ret.
      split; [|lens]. exists (S k). cj; [lia|lens|].
      replace (n - S k) with j by lia. replace (S k) with (k + 1) by lia. rewrite repeat_app. simpl. solve_app.
Qed.

Lemma sort_out_of_place_runs : forall (R : list A -> list A -> Prop) sorter,
  (forall v v', R v v' -> Permutation v v') -> runs R sorter -> runs R (sort_out_of_place sorter).
Proof.
  intros R sorter HRP HR pre xs post.
  destruct (HR (pre ++ repeat Moved (length xs) ++ post) xs []) as (ys & E & Hys).
  exists ys. split; auto. pose proof (Permutation_length (HRP _ _ Hys)) as HL.
  assert (wp (sort_out_of_place sorter (length pre) (length pre + length xs))
    (fun _ m => m = pre ++ map Val ys ++ post) (pre ++ map Val xs ++ post)) as HW.
  { unfold sort_out_of_place. replace (length pre + length xs - length pre) with (length xs) by lia. cbv zeta.
    apply wp_bind, wp_alloc. apply wp_bind. rewrite <- !app_assoc. apply insert_back_wp.
    assert (length (pre ++ map Val xs ++ post) = length (pre ++ repeat Moved (length xs) ++ post)) as EL by lens.
    apply wp_bind. rewrite EL.
    reshape ((pre ++ repeat Moved (length xs) ++ post) ++ map Val xs ++ []).
    eapply wp_run; [exact E|].
    apply wp_bind.
    reshape (pre ++ repeat Moved (length ys) ++ post ++ map Val ys).
    { rewrite <- HL. solve_app. }
    replace (length (pre ++ repeat Moved (length xs) ++ post)) with (length pre + length ys + length post) by lens.
    rewrite HL. apply std_move_back_wp.
    apply wp_bind.
    reshape ((pre ++ map Val ys ++ post) ++ repeat Moved (length ys)).
    replace (length pre + length ys + length post) with (length (pre ++ map Val ys ++ post)) by lens.
    apply destroy_range_wp. apply wp_dealloc; auto. }
  apply wp_ok in HW as ([] & m & EW & ->). exact EW.
Qed.
End OutOfPlace.

(** * counting_adapter *)
Section Counting.
Context {A T X : Type}.

(** One call of a function object. *)
Inductive event : Type :=
| ECompare (a b : T) (r : bool)
| EProject (a : A) (t : T).
Definition is_compare (e : event) : bool := match e with ECompare _ _ _ => true | _ => false end.
Definition is_project (e : event) : bool := match e with EProject _ _ => true | _ => false end.

(** The calls made by an execution of [p] from state [s], its result and its final state. *)
Inductive executes {S} (comp : comparison S) (proj : projection S) : prog A T X -> S -> list event -> X -> S -> Prop :=
| ex_done : forall x s, executes comp proj (Done x) s [] x s
| ex_compare : forall a b k s r s1 es x s2, comp a b s = (r, s1) ->
    executes comp proj (k r) s1 es x s2 -> executes comp proj (Compare a b k) s (ECompare a b r :: es) x s2
| ex_project : forall a k s t s1 es x s2, proj a s = (t, s1) ->
    executes comp proj (k t) s1 es x s2 -> executes comp proj (Project a k) s (EProject a t :: es) x s2.

Lemma executes_total : forall S (comp : comparison S) (proj : projection S) p s, exists es x s',
  executes comp proj p s es x s'.
Proof.
  induction p as [x|a b k IH|a k IH]; intros s.
  - exists [], x, s. constructor.
  - destruct (comp a b s) as [r s1] eqn:E. destruct (IH r s1) as (es & x & s' & H).
    exists (ECompare a b r :: es), x, s'. econstructor; eauto.
  - destruct (proj a s) as [t s1] eqn:E. destruct (IH t s1) as (es & x & s' & H).
    exists (EProject a t :: es), x, s'. econstructor; eauto.
Qed.
Lemma executes_fun : forall S (comp : comparison S) (proj : projection S) p s es x s', executes comp proj p s es x s' ->
  forall es2 x2 s2, executes comp proj p s es2 x2 s2 -> es2 = es /\ x2 = x /\ s2 = s'.
Proof.
  induction 1 as [x s|a b k s r s1 es x s2 E H IH|a k s t s1 es x s2 E H IH]; intros es' x' s' H'.
  - inversion H'; auto.
  - inversion H' as [|? ? ? ? r' s1' es1 ? ? E' H1|]; subst. rewrite E in E'. inversion E'; subst.
    destruct (IH _ _ _ H1) as (-> & -> & ->). auto.
  - inversion H' as [| |? ? ? t' s1' es1 ? ? E' H1]; subst. rewrite E in E'. inversion E'; subst.
    destruct (IH _ _ _ H1) as (-> & -> & ->). auto.
Qed.
Lemma counting_run : forall S (comp : comparison S) (proj : projection S) p s es x s',
  executes comp proj p s es x s' -> forall c,
  run (comparison_counter comp) (uncounted_proj proj) p (c, s) = (x, (c + length (filter is_compare es), s')).
Proof.
  induction 1; intros c; simpl.
  - now rewrite Nat.add_0_r.
  - rewrite H, IHexecutes. f_equal. f_equal. lia.
  - rewrite H, IHexecutes. reflexivity.
Qed.
Lemma projections_run : forall S (comp : comparison S) (proj : projection S) p s es x s',
  executes comp proj p s es x s' -> forall c,
  run (uncounted_comp comp) (projection_counter proj) p (c, s) = (x, (c + length (filter is_project es), s')).
Proof.
  induction 1; intros c; simpl.
  - now rewrite Nat.add_0_r.
  - rewrite H, IHexecutes. reflexivity.
  - rewrite H, IHexecutes. f_equal. f_equal. lia.
Qed.
Lemma plain_run : forall S (comp : comparison S) (proj : projection S) p s es x s',
  executes comp proj p s es x s' -> run comp proj p s = (x, s').
Proof. induction 1; simpl; auto; now rewrite H. Qed.
End Counting.

(** * hybrid_adapter *)
Section HybridProofs.

Definition suits (sorters : list adapted) (it : category) (i : nat) (c : category) : Prop :=
  nth_error sorters i = Some (c, true) /\ category_value c <= category_value it.

Lemma category_value_inj : forall c d, category_value c = category_value d -> c = d.
Proof. destruct c, d; simpl; intros; congruence. Qed.

Lemma In_combine_seq : forall X (l : list X) x i s, In (x, i) (combine l (seq s (length l))) <->
  s <= i /\ nth_error l (i - s) = Some x.
Proof.
  induction l as [|a l IH]; intros x i s; simpl.
  - split; [tauto|]. intros [_ H]. destruct (i - s); discriminate.
  - rewrite IH. split.
    + intros [E|[H1 H2]]; [inversion E; subst; split; auto; now rewrite Nat.sub_diag|].
      split; [lia|]. replace (i - s) with (S (i - S s)) by lia. exact H2.
    + intros [H1 H2]. destruct (Nat.eq_dec s i) as [->|].
      * left. rewrite Nat.sub_diag in H2. simpl in H2. congruence.
      * right. split; [lia|]. replace (i - s) with (S (i - S s)) in H2 by lia. exact H2.
Qed.

Lemma viable_spec : forall sorters it k i, In (k, i) (viable sorters it) <->
  exists c, suits sorters it i c /\ k = leaf_index (length sorters) c i.
Proof.
  intros sorters it k i. unfold viable. rewrite in_map_iff. split.
  - intros ([[c b] j] & E & H). inversion E; subst. apply filter_In in H as [H1 H2].
    apply In_combine_seq in H1 as [_ H1]. rewrite Nat.sub_0_r in H1.
    apply andb_true_iff in H2 as [-> H2]. apply Nat.leb_le in H2. pose proof (nth_lt _ _ _ H1) as HL.
    exists c. split; auto. split; auto. unfold leaf_index, choice_for_it in H2.
    destruct c, it; simpl in *; nia.
  - intros (c & [H1 H2] & ->). pose proof (nth_lt _ _ _ H1) as HL.
    exists ((c, true), i). split; auto. apply filter_In. split.
    + apply In_combine_seq. rewrite Nat.sub_0_r. split; auto. lia.
    + simpl. apply Nat.leb_le. unfold leaf_index, choice_for_it. destruct c, it; simpl in *; nia.
Qed.

Lemma leaf_index_lt : forall n c d i j, i < n -> j < n ->
  (leaf_index n d j < leaf_index n c i <-> category_value d < category_value c \/ (c = d /\ i < j)).
Proof. intros n c d i j Hi Hj. unfold leaf_index. destruct c, d; simpl; split; intros; try lia; try (left; lia); try (right; split; auto; lia); destruct H as [H|[H H2]]; try discriminate; lia. Qed.

Lemma exists_best : forall cands : list (nat * nat), cands <> [] ->
  exists c, In c cands /\ forall d, In d cands -> fst d <= fst c.
Proof.
  induction cands as [|a l IH]; intros HN; [congruence|].
  destruct l as [|b l].
  - exists a. split; simpl; auto. intros d [<-|[]]. auto.
  - destruct IH as (c & Hc & HB); [discriminate|].
    destruct (Nat.le_gt_cases (fst a) (fst c)) as [H|H].
    + exists c. split; [right; auto|]. intros d [<-|Hd]; auto.
    + exists a. split; [left; auto|]. intros d [<-|Hd]; auto. specialize (HB d Hd). lia.
Qed.

Definition hybrid_choice (sorters : list adapted) (it : category) (i : nat) : Prop :=
  exists c, suits sorters it i c /\ forall j d, suits sorters it j d -> j <> i ->
    category_value d < category_value c \/ (d = c /\ i < j).

Lemma hybrid_dispatch_some : forall sorters it i, hybrid_dispatch sorters it = Some i <-> hybrid_choice sorters it i.
Proof.
  intros sorters it i.
  assert (forall i c, suits sorters it i c -> i < length sorters) as HL.
  { intros j c [H _]. eapply nth_lt; eauto. }
  assert (forall k i, In (k, i) (viable sorters it) ->
    (forallb (fun d => (snd d =? i) || (fst d <? k)) (viable sorters it) = true <-> hybrid_choice sorters it i)) as K.
  { intros k j Hin. apply viable_spec in Hin as (c & Hc & ->). rewrite forallb_forall. split.
    - intros H. exists c. split; auto. intros j' d Hd Hne.
      specialize (H (leaf_index (length sorters) d j', j')).
      rewrite orb_true_iff, Nat.eqb_eq, Nat.ltb_lt in H. simpl in H.
      destruct H as [H|H]; [apply viable_spec; eauto|congruence|].
      apply leaf_index_lt in H; eauto. intuition.
    - intros (c' & Hc' & HB) [k' j'] Hin. apply viable_spec in Hin as (d & Hd & ->). simpl.
      assert (c' = c) as ->. { destruct Hc, Hc'. congruence. }
      apply orb_true_iff. destruct (Nat.eqb_spec j' j); auto. right. apply Nat.ltb_lt.
      apply leaf_index_lt; eauto. destruct (HB j' d Hd n) as [|[-> ?]]; auto. }
  unfold hybrid_dispatch, resolve. split.
  - intros H. destruct (find _ _) as [[k j]|] eqn:E; [|discriminate]. inversion H; subst.
    apply find_some in E as [E1 E2]. simpl in E2. apply K in E2; auto.
  - intros HC. destruct (find _ _) as [[k j]|] eqn:E.
    + apply find_some in E as [E1 E2]. simpl in E2. simpl. apply K in E2; auto.
      destruct E2 as (c & Hc & Hb), HC as (c' & Hc' & Hb'). f_equal.
      destruct (Nat.eq_dec i j) as [|Hne]; auto. exfalso.
      specialize (Hb _ _ Hc' Hne). specialize (Hb' _ _ Hc (not_eq_sym Hne)).
      destruct Hb as [?|[-> ?]], Hb' as [?|[? ?]]; subst; lia.
    + exfalso. pose proof HC as (c & Hc & _).
      assert (In (leaf_index (length sorters) c i, i) (viable sorters it)) as Hin by (apply viable_spec; eauto).
      apply (find_none _ _ E) in Hin as HF. simpl in HF.
      assert (forallb (fun d => (snd d =? i) || (fst d <? leaf_index (length sorters) c i)) (viable sorters it) = true) as HT
        by (apply (proj2 (K _ _ Hin)); auto).
      congruence.
Qed.

Lemma hybrid_choice_exists : forall sorters it, (exists i c, suits sorters it i c) -> exists i, hybrid_choice sorters it i.
Proof.
  intros sorters it (i0 & c0 & H0).
  assert (forall i c, suits sorters it i c -> i < length sorters) as HL.
  { intros j c [H _]. eapply nth_lt; eauto. }
  destruct (exists_best (viable sorters it)) as ([k i] & Hin & HB).
  { intros E. assert (In (leaf_index (length sorters) c0 i0, i0) (viable sorters it)) as H by (apply viable_spec; eauto).
    rewrite E in H. destruct H. }
  apply viable_spec in Hin as (c & Hc & ->). exists i, c. split; auto. intros j d Hd Hne.
  assert (leaf_index (length sorters) d j <= leaf_index (length sorters) c i) as H.
  { apply (HB (leaf_index (length sorters) d j, j)). apply viable_spec. eauto. }
  assert (~ leaf_index (length sorters) c i < leaf_index (length sorters) d j) as H' by lia.
  rewrite leaf_index_lt in H' by eauto.
  destruct (Nat.lt_trichotomy (category_value d) (category_value c)) as [L|[L|L]]; auto.
  - right. apply category_value_inj in L. subst d. split; auto.
    destruct (Nat.lt_trichotomy i j) as [|[|]]; auto; [congruence|]. exfalso. apply H'. auto.
  - exfalso. apply H'. auto.
Qed.

Lemma hybrid_dispatch_none : forall sorters it, hybrid_dispatch sorters it = None <->
  forall i c, ~ suits sorters it i c.
Proof.
  intros sorters it. split.
  - intros E i c H. destruct (hybrid_choice_exists sorters it (ex_intro _ i (ex_intro _ c H))) as (j & Hj).
    apply hybrid_dispatch_some in Hj. congruence.
  - intros H. destruct (hybrid_dispatch sorters it) eqn:E; auto. apply hybrid_dispatch_some in E as (c & Hc & _).
    now apply H in Hc.
Qed.

(** Leaves of a nested sorter, from left to right. *)
Fixpoint leaves {X} (t : sorter_type X) : list X :=
  match t with
  | Single x => [x]
  | Hybrid l => flat_map leaves l
  end.

Lemma type_size_app : forall X (a b : list (sorter_type X)),
  fold_right (fun t n => type_size t + n) 0 (a ++ b) =
  fold_right (fun t n => type_size t + n) 0 a + fold_right (fun t n => type_size t + n) 0 b.
Proof. induction a; intros; simpl; auto. rewrite IHa. lia. Qed.
Lemma flatten_fold_spec : forall X fuel (ts : list (sorter_type X)) acc,
  fold_right (fun t n => type_size t + n) 0 ts < fuel -> flatten_fold fuel ts acc = Some (acc ++ flat_map leaves ts).
Proof.
  induction fuel as [|fuel IH]; intros ts acc H; [lia|]. destruct ts as [|[x|l] ts]; cbn [flatten_fold].
  - simpl. now rewrite app_nil_r.
  - simpl in H. rewrite IH by lia. simpl. now rewrite <- app_assoc.
  - simpl in H. rewrite IH by (rewrite type_size_app; lia). simpl. now rewrite flat_map_app.
Qed.
Lemma flatten_spec : forall X (ts : list (sorter_type X)), flatten ts = Some (flat_map leaves ts).
Proof. intros. unfold flatten. rewrite flatten_fold_spec; simpl; auto; lia. Qed.
End HybridProofs.
