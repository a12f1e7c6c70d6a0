(** Lemmas on strict weak orders, sortedness and stability; the pure stable sort. *)
From Coq Require Import List Arith Lia Permutation Bool Sorted.
From Verif Require Import Spec.Order Lang.Mem Spec.Sorts Proofs.Wp.
Import ListNotations.

Lemma swo_by_proj : forall A T (comp : T -> T -> bool) (proj : A -> T),
  strict_weak_order comp -> strict_weak_order (by_proj comp proj).
Proof.
  intros A T comp proj [I Tr In]. unfold by_proj. constructor; intros; eauto.
Qed.

Lemma filter_length_le : forall X (f : X -> bool) l, length (filter f l) <= length l.
Proof. induction l; simpl; auto. destruct (f a); simpl; lia. Qed.

Section Order.
Context {A : Type} (lt : A -> A -> bool).
Notation eqv := (equivalent lt).

Definition le (x y : A) : Prop := lt y x = false.

Section SWO.
Hypothesis H : strict_weak_order lt.

Lemma lt_irrefl : forall x, lt x x = false.
Proof. apply H. Qed.
Lemma lt_trans : forall x y z, lt x y = true -> lt y z = true -> lt x z = true.
Proof. apply H. Qed.
Lemma lt_asym : forall x y, lt x y = true -> lt y x = false.
Proof.
  intros x y H0. destruct (lt y x) eqn:E; auto.
  pose proof (lt_trans _ _ _ H0 E) as H1. rewrite lt_irrefl in H1. discriminate.
Qed.
Lemma lt_le : forall x y, lt x y = true -> le x y.
Proof. intros. red. now apply lt_asym. Qed.
Lemma le_refl : forall x, le x x.
Proof. intros. red. apply lt_irrefl. Qed.
Lemma le_trans : forall x y z, le x y -> le y z -> le x z.
Proof.
  unfold le. intros x y z H1 H2.
  destruct (lt z x) eqn:E; auto. exfalso.
  destruct (lt x y) eqn:E1; [rewrite (lt_trans z x y) in H2; auto; discriminate|].
  destruct (lt y z) eqn:E2; [rewrite (lt_trans y z x) in H1; auto; discriminate|].
  destruct (swo_incomp lt H x y z); auto. congruence.
Qed.
Lemma le_lt_trans : forall x y z, le x y -> lt y z = true -> lt x z = true.
Proof.
  intros x y z H1 H2. destruct (lt x z) eqn:E; auto. exfalso.
  assert (le z y) by (eapply le_trans; eauto). red in H0. congruence.
Qed.
Lemma lt_le_trans : forall x y z, lt x y = true -> le y z -> lt x z = true.
Proof.
  intros x y z H1 H2. destruct (lt x z) eqn:E; auto. exfalso.
  assert (le y x) by (eapply le_trans; eauto). red in H0. congruence.
Qed.
Lemma le_total : forall x y, le x y \/ le y x.
Proof. intros. unfold le. destruct (lt y x) eqn:E; auto. right. now apply lt_asym. Qed.

Lemma eqv_spec : forall x y, eqv x y = true <-> le x y /\ le y x.
Proof.
  intros. unfold equivalent, le. rewrite andb_true_iff, !negb_true_iff. tauto.
Qed.
Lemma eqv_refl : forall x, eqv x x = true.
Proof. intros. apply eqv_spec. split; apply le_refl. Qed.
Lemma eqv_sym : forall x y, eqv x y = eqv y x.
Proof. intros. unfold equivalent. now rewrite andb_comm. Qed.
Lemma eqv_trans : forall x y z, eqv x y = true -> eqv y z = true -> eqv x z = true.
Proof.
  intros x y z. rewrite !eqv_spec. intros [? ?] [? ?]; split; eapply le_trans; eauto.
Qed.
Lemma lt_not_eqv : forall x y, lt x y = true -> eqv x y = false.
Proof. intros. unfold equivalent. now rewrite H0. Qed.
Lemma eqv_ext : forall x y, eqv x y = true -> forall z, eqv x z = eqv y z.
Proof.
  intros x y E z. destruct (eqv y z) eqn:E1.
  - eapply eqv_trans; eauto.
  - destruct (eqv x z) eqn:E2; auto. rewrite <- E1.
    symmetry. apply eqv_trans with x; auto. rewrite eqv_sym; auto.
Qed.
End SWO.

(** ** sortedness *)
Lemma sorted_nil : sorted lt [].
Proof. intros i j x y _ Hi. destruct i; discriminate. Qed.

Lemma sorted_cons : forall a l, sorted lt (a :: l) <-> (forall b, In b l -> le a b) /\ sorted lt l.
Proof.
  intros a l. split.
  - intros HS. split.
    + intros b Hb. apply In_nth_error in Hb as (n & Hn).
      apply (HS 0 (S n) a b); auto; lia.
    + intros i j x y Hij Hi Hj. apply (HS (S i) (S j) x y); auto; lia.
  - intros [Ha HS] i j x y Hij Hi Hj.
    destruct j; [lia|]. destruct i; simpl in *.
    + injection Hi as ->. apply Ha. eapply nth_error_In; eauto.
    + apply (HS i j); auto; lia.
Qed.

Lemma sorted_one : forall a, sorted lt [a].
Proof. intros. apply sorted_cons. split; [simpl; tauto|apply sorted_nil]. Qed.

Lemma sorted_app : forall l1 l2, sorted lt (l1 ++ l2) <->
  sorted lt l1 /\ sorted lt l2 /\ (forall x y, In x l1 -> In y l2 -> le x y).
Proof.
  induction l1; intros l2; simpl.
  - split; [intros; repeat split; auto using sorted_nil; simpl; tauto|tauto].
  - rewrite !sorted_cons, IHl1. split.
    + intros (H1 & H2 & H3 & H4). repeat split; auto.
      * intros. apply H1. apply in_or_app; auto.
      * intros x y [->|Hx] Hy; auto. apply H1. apply in_or_app; auto.
    + intros ((H1 & H2) & H3 & H4). repeat split; auto.
      intros b Hb. apply in_app_or in Hb as [Hb|Hb]; auto.
Qed.

Lemma sorted_perm_le : forall a l l', Permutation l l' -> (forall b, In b l -> le a b) ->
  forall b, In b l' -> le a b.
Proof. intros. apply H0. eapply Permutation_in; [symmetry|]; eauto. Qed.

(** Sorted when adjacent elements are. *)
Lemma sorted_adjacent : strict_weak_order lt -> forall l,
  (forall i x y, nth_error l i = Some x -> nth_error l (S i) = Some y -> le x y) ->
  sorted lt l.
Proof.
  intros HW l Hadj i j x y Hij. revert x y. induction Hij; intros x y Hi Hj.
  - eapply Hadj; eauto.
  - destruct (nth_error l m) as [z|] eqn:E.
    + eapply (le_trans HW); [apply IHHij; eauto|eapply Hadj; eauto].
    + apply nth_error_None in E. apply nth_lt in Hj. lia.
Qed.

(** ** stability *)
Notation same := (same_order_in_classes lt).

Lemma same_refl : forall l, same l l.
Proof. intros l x. auto. Qed.
Lemma same_trans : forall l1 l2 l3, same l1 l2 -> same l2 l3 -> same l1 l3.
Proof. intros l1 l2 l3 H1 H2 x. now rewrite H2, H1. Qed.
Lemma same_sym : forall l1 l2, same l1 l2 -> same l2 l1.
Proof. intros l1 l2 H1 x. now rewrite H1. Qed.
Lemma same_app : forall l1 l2 r1 r2, same l1 r1 -> same l2 r2 -> same (l1 ++ l2) (r1 ++ r2).
Proof. intros l1 l2 r1 r2 H1 H2 x. now rewrite !filter_app, H1, H2. Qed.
Lemma same_cons : forall a l l', same l l' -> same (a :: l) (a :: l').
Proof. intros a l l' H1 x. simpl. now rewrite H1. Qed.

(** Exchanging two blocks whose elements are pairwise non equivalent. *)
Lemma same_swap : strict_weak_order lt -> forall l1 l2,
  (forall x y, In x l1 -> In y l2 -> lt y x = true) -> same (l1 ++ l2) (l2 ++ l1).
Proof.
  intros HW l1 l2 Hlt x. rewrite !filter_app.
  destruct (filter (eqv x) l1) as [|a f1] eqn:E1; [now rewrite app_nil_r|].
  destruct (filter (eqv x) l2) as [|b f2] eqn:E2; [now rewrite app_nil_r|].
  exfalso.
  assert (In a (filter (eqv x) l1)) as Ha by (rewrite E1; simpl; auto).
  assert (In b (filter (eqv x) l2)) as Hb by (rewrite E2; simpl; auto).
  apply filter_In in Ha as [Ha Ea]. apply filter_In in Hb as [Hb Eb].
  specialize (Hlt a b Ha Hb).
  rewrite (eqv_sym x b) in Eb.
  pose proof (eqv_trans HW _ _ _ Eb Ea) as E.
  rewrite lt_not_eqv in E; auto. discriminate.
Qed.

Lemma same_perm : strict_weak_order lt -> forall l1 l2, same l1 l2 -> Permutation l1 l2.
Proof.
  intros HW l1. remember (length l1) as n eqn:Hn.
  revert l1 Hn. induction n as [n IH] using lt_wf_ind. intros l1 Hn l2 HS.
  destruct l1 as [|a l1].
  - destruct l2 as [|b l2]; auto. exfalso.
    specialize (HS b). simpl in HS. rewrite (eqv_refl HW) in HS. discriminate.
  - assert (forall l, Permutation l (filter (eqv a) l ++ filter (fun x => negb (eqv a x)) l)) as Part.
    { clear. induction l; simpl; auto. destruct (eqv a a0); simpl.
      - now constructor.
      - rewrite IHl at 1. apply Permutation_middle. }
    rewrite (Part (a :: l1)), (Part l2). rewrite (HS a). apply Permutation_app_head.
    assert (same (filter (fun x => negb (eqv a x)) (a :: l1)) (filter (fun x => negb (eqv a x)) l2)) as HS'.
    { intros x. 
      assert (forall l, filter (eqv x) (filter (fun x => negb (eqv a x)) l) = 
         if eqv a x then [] else filter (eqv x) l) as FF.
      { clear -HW. induction l; simpl. { destruct (eqv a x); auto. }
        destruct (eqv a a0) eqn:E; simpl.
        - rewrite IHl. destruct (eqv a x) eqn:E2; auto.
          destruct (eqv x a0) eqn:E3; auto.
          rewrite (eqv_sym x a0) in E3. rewrite (eqv_trans HW a a0 x) in E2; auto. discriminate.
        - destruct (eqv x a0) eqn:E3; rewrite IHl; destruct (eqv a x) eqn:E2; auto.
          rewrite (eqv_trans HW a x a0) in E; auto. discriminate. }
      rewrite !FF. destruct (eqv a x); auto. }
    eapply IH; [|reflexivity|exact HS'].
    simpl. rewrite (eqv_refl HW). simpl. subst n. simpl.
    pose proof (filter_length_le _ (fun x => negb (eqv a x)) l1). lia.
Qed.

Lemma stable_unique : strict_weak_order lt -> forall l1 l2,
  sorted lt l1 -> sorted lt l2 -> same l1 l2 -> l1 = l2.
Proof.
  intros HW. induction l1 as [|a l1 IH]; intros [|b l2] S1 S2 HS; auto.
  - specialize (HS b). simpl in HS. rewrite (eqv_refl HW) in HS. discriminate.
  - specialize (HS a). simpl in HS. rewrite (eqv_refl HW) in HS. discriminate.
  - apply sorted_cons in S1 as [Ma S1]. apply sorted_cons in S2 as [Mb S2].
    pose proof (same_perm HW _ _ HS) as HP.
    assert (le a b) as Hab.
    { assert (In b (a :: l1)) as [->|Hin].
      { eapply Permutation_in; [symmetry; exact HP|]. simpl; auto. }
      apply (le_refl HW). auto. }
    assert (le b a) as Hba.
    { assert (In a (b :: l2)) as [->|Hin].
      { eapply Permutation_in; [exact HP|]. simpl; auto. }
      apply (le_refl HW). auto. }
    pose proof (HS a) as HSa. simpl in HSa. rewrite (eqv_refl HW) in HSa.
    assert (eqv a b = true) as E by (apply eqv_spec; auto). rewrite E in HSa.
    injection HSa as <- HSa.
    f_equal. apply IH; auto.
    intros x. specialize (HS x). simpl in HS. destruct (eqv x b); congruence.
Qed.

(** ** the pure stable sort *)
Fixpoint sinsert (a : A) (l : list A) : list A :=
  match l with
  | [] => [a]
  | b :: l' => if lt b a then b :: sinsert a l' else a :: l
  end.
Definition ssort (l : list A) : list A := fold_right sinsert [] l.

Lemma sinsert_perm : forall a l, Permutation (a :: l) (sinsert a l).
Proof.
  induction l; simpl; auto. destruct (lt a0 a); auto.
  rewrite perm_swap. now constructor.
Qed.
Lemma ssort_perm : forall l, Permutation l (ssort l).
Proof. induction l; simpl; auto. rewrite <- sinsert_perm. now constructor. Qed.
Lemma ssort_length : forall l, length (ssort l) = length l.
Proof. intros. symmetry. apply Permutation_length, ssort_perm. Qed.

Lemma sinsert_sorted : strict_weak_order lt -> forall a l, sorted lt l -> sorted lt (sinsert a l).
Proof.
  intros HW a. induction l as [|b l IH]; simpl; intros HS.
  - apply sorted_one.
  - destruct (lt b a) eqn:E.
    + apply sorted_cons in HS as [Hb HS]. apply sorted_cons. split; auto.
      intros c Hc. eapply Permutation_in in Hc; [|symmetry; apply sinsert_perm].
      destruct Hc as [<-|Hc]; auto. apply lt_le; auto.
    + apply sorted_cons. split; auto. apply sorted_cons in HS as [Hb HS].
      intros c [<-|Hc]; auto. eapply (le_trans HW); [|apply Hb; auto]. auto.
Qed.
Lemma ssort_sorted : strict_weak_order lt -> forall l, sorted lt (ssort l).
Proof. intros HW. induction l; simpl. apply sorted_nil. now apply sinsert_sorted. Qed.

Lemma sinsert_same : strict_weak_order lt -> forall a l, same (a :: l) (sinsert a l).
Proof.
  intros HW a. induction l as [|b l IH]; simpl. apply same_refl.
  destruct (lt b a) eqn:E; [|apply same_refl].
  eapply same_trans; [|apply same_cons; apply IH].
  apply (same_app [a;b] l [b;a] l); [|apply same_refl].
  apply (same_swap HW [a] [b]). simpl. intros x y [<-|[]] [<-|[]]. auto.
Qed.
Lemma ssort_same : strict_weak_order lt -> forall l, same l (ssort l).
Proof.
  intros HW. induction l; simpl. apply same_refl.
  eapply same_trans; [|apply sinsert_same; auto]. now apply same_cons.
Qed.

Lemma ssort_stable : strict_weak_order lt -> forall l, is_stable_sorting_of lt l (ssort l).
Proof.
  intros. split; [apply ssort_perm|]. split; [now apply ssort_sorted|now apply ssort_same].
Qed.

Lemma stable_is_ssort : strict_weak_order lt -> forall l l',
  sorted lt l' -> same l l' -> l' = ssort l.
Proof.
  intros HW l l' HS HP. apply stable_unique; auto.
  - now apply ssort_sorted.
  - eapply same_trans; [apply same_sym; eauto|]. now apply ssort_same.
Qed.

Lemma ssort_id : strict_weak_order lt -> forall l, sorted lt l -> ssort l = l.
Proof. intros. symmetry. apply stable_is_ssort; auto. apply same_refl. Qed.

Lemma ssort_same_eq : strict_weak_order lt -> forall l l', same l l' -> ssort l = ssort l'.
Proof.
  intros HW l l' HS. apply stable_unique; auto using ssort_sorted.
  eapply same_trans; [apply same_sym, ssort_same; auto|].
  eapply same_trans; [eauto|apply ssort_same; auto].
Qed.

(** ** the pure stable merge *)
Fixpoint merge (l1 : list A) : list A -> list A :=
  fix aux l2 :=
    match l1, l2 with
    | [], _ => l2
    | _, [] => l1
    | a :: t1, b :: t2 => if lt b a then b :: aux t2 else a :: merge t1 l2
    end.

Lemma merge_nil_l : forall l, merge [] l = l.
Proof. destruct l; auto. Qed.
Lemma merge_nil_r : forall l, merge l [] = l.
Proof. destruct l; auto. Qed.
Lemma merge_cons : forall a t1 b t2, merge (a :: t1) (b :: t2) =
  if lt b a then b :: merge (a :: t1) t2 else a :: merge t1 (b :: t2).
Proof. reflexivity. Qed.

Lemma merge_perm : forall l1 l2, Permutation (l1 ++ l2) (merge l1 l2).
Proof.
  induction l1 as [|a l1 IH1]; intros l2. { rewrite merge_nil_l. auto. }
  induction l2 as [|b l2 IH2]. { rewrite merge_nil_r, app_nil_r. auto. }
  rewrite merge_cons. destruct (lt b a).
  - rewrite <- IH2. symmetry. apply Permutation_middle.
  - simpl. constructor. apply IH1.
Qed.
Lemma merge_length : forall l1 l2, length (merge l1 l2) = length l1 + length l2.
Proof. intros. rewrite <- (Permutation_length (merge_perm l1 l2)). apply app_length. Qed.

Lemma merge_sorted : strict_weak_order lt -> forall l1 l2,
  sorted lt l1 -> sorted lt l2 -> sorted lt (merge l1 l2).
Proof.
  intros HW. induction l1 as [|a l1 IH1]; intros l2 S1. { rewrite merge_nil_l. auto. }
  induction l2 as [|b l2 IH2]; intros S2. { rewrite merge_nil_r. auto. }
  rewrite merge_cons. destruct (lt b a) eqn:E.
  - apply sorted_cons. apply sorted_cons in S2 as [Mb S2]. split; auto.
    intros c Hc. eapply Permutation_in in Hc; [|symmetry; apply merge_perm].
    apply in_app_or in Hc as [Hc|Hc]; auto.
    apply sorted_cons in S1 as [Ma S1].
    destruct Hc as [<-|Hc]. { now apply lt_le. }
    eapply (le_trans HW); [|apply Ma; auto]. now apply lt_le.
  - apply sorted_cons in S1 as [Ma S1]. apply sorted_cons. split; auto.
    intros c Hc. eapply Permutation_in in Hc; [|symmetry; apply merge_perm].
    apply in_app_or in Hc as [Hc|Hc]; auto.
    apply sorted_cons in S2 as [Mb S2].
    destruct Hc as [<-|Hc]; auto.
    eapply (le_trans HW); [|apply Mb; auto]. auto.
Qed.

Lemma merge_same : strict_weak_order lt -> forall l1 l2,
  sorted lt l1 -> same (l1 ++ l2) (merge l1 l2).
Proof.
  intros HW. induction l1 as [|a l1 IH1]; intros l2 S1. { rewrite merge_nil_l. apply same_refl. }
  induction l2 as [|b l2 IH2]. { rewrite merge_nil_r, app_nil_r. apply same_refl. }
  rewrite merge_cons. destruct (lt b a) eqn:E.
  - apply same_trans with (b :: (a :: l1) ++ l2); [|apply same_cons, IH2].
    change (b :: (a :: l1) ++ l2) with (([b] ++ (a :: l1)) ++ l2).
    replace ((a :: l1) ++ b :: l2) with (((a :: l1) ++ [b]) ++ l2) by (now rewrite <- app_assoc).
    apply same_app; [|apply same_refl]. apply same_swap; auto.
    apply sorted_cons in S1 as [Ma S1].
    intros x y Hx [<-|[]]. destruct Hx as [<-|Hx]; auto.
    eapply lt_le_trans; eauto.
  - simpl. apply same_cons. apply IH1. now apply sorted_cons in S1 as [Ma S1].
Qed.

Lemma merge_ssort : strict_weak_order lt -> forall l1 l2,
  merge (ssort l1) (ssort l2) = ssort (l1 ++ l2).
Proof.
  intros HW l1 l2. apply stable_is_ssort; auto.
  - apply merge_sorted; auto using ssort_sorted.
  - eapply same_trans; [|apply merge_same; auto using ssort_sorted].
    apply same_app; apply ssort_same; auto.
Qed.

Lemma merge_sorted_eq : strict_weak_order lt -> forall l1 l2,
  sorted lt l1 -> sorted lt l2 -> merge l1 l2 = ssort (l1 ++ l2).
Proof.
  intros HW l1 l2 H1 H2. rewrite <- merge_ssort by auto. now rewrite !ssort_id.
Qed.

(** ** from ranges of memory to lists *)
Lemma sorted_range_list : forall pre ys post,
  sorted_range lt (length pre) (length pre + length ys) (pre ++ map Val ys ++ post) ->
  sorted lt ys.
Proof.
  intros pre ys post HS i j x y Hij Hi Hj.
  apply (HS (length pre + i) (length pre + j)); try lia.
  - apply nth_lt in Hj. lia.
  - rewrite nth_pre_map_post, Hi; auto. eapply nth_lt; eauto.
  - rewrite nth_pre_map_post, Hj; auto. eapply nth_lt; eauto.
Qed.

Lemma list_sorted_range : forall pre ys post, sorted lt ys ->
  sorted_range lt (length pre) (length pre + length ys) (pre ++ map Val ys ++ post).
Proof.
  intros pre ys post HS i j x y Hi Hij Hj.
  replace i with (length pre + (i - length pre)) by lia.
  replace j with (length pre + (j - length pre)) by lia.
  rewrite !nth_pre_map_post by lia.
  destruct (nth_error ys (i - length pre)) eqn:E1; simpl; [|discriminate].
  destruct (nth_error ys (j - length pre)) eqn:E2; simpl; [|discriminate].
  intros [= ->] [= ->]. eapply HS; [|eauto|eauto]. lia.
Qed.

(** The standard way to conclude that an index-based program sorts. *)
Lemma sorts_intro : forall prog : range_prog A,
  (forall f l m, f <= l -> full f l m ->
     wp (prog f l) (fun _ m' => pm f l m m' /\ sorted_range lt f l m') m) ->
  sorts lt prog.
Proof.
  intros prog Hp pre xs post.
  specialize (Hp (length pre) (length pre + length xs) (pre ++ map Val xs ++ post)).
  destruct (proj1 (wp_ok _ _ _ _) (Hp ltac:(lia) (full_init _ _ _))) as ([] & m' & E & P & S).
  apply pm_decomp in P as (ys & -> & HP).
  exists ys. split; auto. split; auto.
  rewrite (Permutation_length HP) in S. eapply sorted_range_list; eauto.
Qed.

Lemma permutes_intro : forall prog : range_prog A,
  (forall f l m, f <= l -> full f l m -> wp (prog f l) (fun _ m' => pm f l m m') m) ->
  permutes prog.
Proof.
  intros prog Hp pre xs post.
  specialize (Hp (length pre) (length pre + length xs) (pre ++ map Val xs ++ post)).
  destruct (proj1 (wp_ok _ _ _ _) (Hp ltac:(lia) (full_init _ _ _))) as ([] & m' & E & P).
  apply pm_decomp in P as (ys & -> & HP).
  exists ys. split; auto.
Qed.

(** Conversely, a program known to sort can be used in an index-based proof. *)
Lemma full_decomp : forall (m : mem A) f l, f <= l -> full f l m ->
  exists pre xs post, m = pre ++ map Val xs ++ post /\ length pre = f /\ length xs = l - f.
Proof.
  intros m f l Hfl [L Hf].
  destruct (mem_decomp f l m) as (p & mi & po & -> & Hp & Hm); auto.
  assert (exists xs, mi = map Val xs) as (xs & ->).
  { assert (forall c, In c mi -> exists a, c = Val a) as Hall.
    { intros c Hc. apply In_nth_error in Hc as (n & Hn).
      destruct (Hf (f + n)) as (a & Ha). { apply nth_lt in Hn. lia. }
      rewrite nth_error_app2 in Ha by lia.
      replace (f + n - length p) with n in Ha by lia.
      rewrite nth_error_app1 in Ha by (eapply nth_lt; eauto).
      exists a. congruence. }
    clear -Hall. induction mi as [|c mi IH]; [exists []; auto|].
    destruct (Hall c) as (a & ->); [simpl; auto|].
    destruct IH as (xs & ->). { intros. apply Hall. simpl; auto. }
    exists (a :: xs). auto. }
  rewrite map_length in Hm. exists p, xs, po. auto.
Qed.

Lemma sorts_elim : forall prog f l (m : mem A), sorts lt prog -> f <= l -> full f l m ->
  wp (prog f l) (fun _ m' => pm f l m m' /\ sorted_range lt f l m') m.
Proof.
  intros prog f l m HS Hfl Hf.
  destruct (full_decomp m f l Hfl Hf) as (pre & xs & post & -> & Hp & Hx).
  destruct (HS pre xs post) as (ys & E & HP & HO).
  replace l with (length pre + length xs) by lia. subst f.
  eapply wp_run; [exact E|].
  split.
  - split; [|apply Permutation_app_head, Permutation_app_tail, Permutation_map; auto].
    split. { rewrite !app_length, !map_length. now rewrite (Permutation_length HP). }
    intros k [Hk|Hk].
    + rewrite !nth_error_app1; auto.
    + rewrite !nth_error_app2; rewrite ?map_length, ?(Permutation_length HP) in *; try lia; auto.
  - rewrite (Permutation_length HP). now apply list_sorted_range.
Qed.
End Order.
