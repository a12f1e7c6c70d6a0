(** The linked lists of detail/fixed_size_list.h. *)
From Coq Require Import List Arith Lia Permutation Bool.
From Verif Require Import Spec.Order Lang.Mem Proofs.Wp Proofs.OrderLib Model.Indirect Proofs.Indirect Model.Select Proofs.Select Model.FixedList.
Import ListNotations.
Local Arguments nth_error : simpl never.
Local Arguments upd : simpl never.

(** * Consecutive elements of a list *)
Fixpoint linked (R : nat -> nat -> Prop) (l : list nat) : Prop :=
  match l with
  | x :: (y :: _) as t => R x y /\ linked R t
  | _ => True
  end.

Lemma linked_app : forall R l1 x l2, linked R (l1 ++ x :: l2) <-> linked R (l1 ++ [x]) /\ linked R (x :: l2).
Proof.
  induction l1 as [|a l1 IH]; intros x l2.
  - simpl. destruct l2; tauto.
  - destruct l1 as [|b l1].
    + simpl. destruct l2; tauto.
    + specialize (IH x l2). simpl in *. tauto.
Qed.

Lemma linked_at : forall R l1 x y l2, linked R (l1 ++ x :: y :: l2) -> R x y.
Proof. intros R l1 x y l2 H. apply linked_app in H as [_ H]. apply H. Qed.

Lemma linked_mono : forall (R R' : nat -> nat -> Prop) l, linked R l ->
  (forall l1 x y l2, l = l1 ++ x :: y :: l2 -> R x y -> R' x y) -> linked R' l.
Proof.
  intros R R'. induction l as [|a l IH]; intros H HR; simpl; auto. destruct l as [|b l]; auto.
  destruct H as [H1 H2]. split.
  - apply (HR [] a b l); auto.
  - apply IH; auto. intros l1 x y l2 E. apply (HR (a :: l1) x y l2). simpl. congruence.
Qed.

Section Lists.
Context {A V : Type}.
Implicit Types ns : list (list_node V).

Definition nxt ns (x : nat) : option nat := match nth_error ns x with Some n => next n | None => None end.
Definition prv ns (x : nat) : option nat := match nth_error ns x with Some n => prev n | None => None end.
Definition vl ns (x : nat) : cell V := match nth_error ns x with Some n => value n | None => Raw end.

Lemma nth_some : forall X (l : list X) i, i < length l -> exists x, nth_error l i = Some x.
Proof. intros X l i H. destruct (nth_error l i) eqn:E; eauto. apply nth_error_None in E. lia. Qed.

(** * Fields of the nodes *)
Lemma wp_set_next : forall ns i p (Q : list (list_node V) -> mem A -> Prop) m, i < length ns ->
  (forall ns', length ns' = length ns -> (forall j, nxt ns' j = if j =? i then p else nxt ns j) -> (forall j, prv ns' j = prv ns j) ->
     (forall j, vl ns' j = vl ns j) -> Q ns' m) -> wp (set_next ns i p) Q m.
Proof.
  intros ns i p Q m Hi HQ. unfold set_next. destruct (nth_some _ ns i Hi) as (n & E). apply wp_bind. eapply wp_rd; eauto. apply wp_wr; auto.
  apply HQ; [apply upd_length| | |]; intros j; unfold nxt, prv, vl; destruct (Nat.eqb_spec j i) as [->|H].
  - rewrite nth_upd_eq; auto.
  - rewrite nth_upd_ne; auto.
  - rewrite nth_upd_eq, E; auto.
  - rewrite nth_upd_ne; auto.
  - rewrite nth_upd_eq, E; auto.
  - rewrite nth_upd_ne; auto.
Qed.
Lemma wp_set_prev : forall ns i p (Q : list (list_node V) -> mem A -> Prop) m, i < length ns ->
  (forall ns', length ns' = length ns -> (forall j, prv ns' j = if j =? i then p else prv ns j) -> (forall j, nxt ns' j = nxt ns j) ->
     (forall j, vl ns' j = vl ns j) -> Q ns' m) -> wp (set_prev ns i p) Q m.
Proof.
  intros ns i p Q m Hi HQ. unfold set_prev. destruct (nth_some _ ns i Hi) as (n & E). apply wp_bind. eapply wp_rd; eauto. apply wp_wr; auto.
  apply HQ; [apply upd_length| | |]; intros j; unfold nxt, prv, vl; destruct (Nat.eqb_spec j i) as [->|H].
  - rewrite nth_upd_eq; auto.
  - rewrite nth_upd_ne; auto.
  - rewrite nth_upd_eq, E; auto.
  - rewrite nth_upd_ne; auto.
  - rewrite nth_upd_eq, E; auto.
  - rewrite nth_upd_ne; auto.
Qed.
Lemma wp_set_value : forall ns i c (Q : list (list_node V) -> mem A -> Prop) m, i < length ns ->
  (forall ns', length ns' = length ns -> (forall j, vl ns' j = if j =? i then c else vl ns j) -> (forall j, nxt ns' j = nxt ns j) ->
     (forall j, prv ns' j = prv ns j) -> Q ns' m) -> wp (set_value ns i c) Q m.
Proof.
  intros ns i p Q m Hi HQ. unfold set_value. destruct (nth_some _ ns i Hi) as (n & E). apply wp_bind. eapply wp_rd; eauto. apply wp_wr; auto.
  apply HQ; [apply upd_length| | |]; intros j; unfold nxt, prv, vl; destruct (Nat.eqb_spec j i) as [->|H].
  - rewrite nth_upd_eq; auto.
  - rewrite nth_upd_ne; auto.
  - rewrite nth_upd_eq, E; auto.
  - rewrite nth_upd_ne; auto.
  - rewrite nth_upd_eq, E; auto.
  - rewrite nth_upd_ne; auto.
Qed.

Lemma wp_pointee : forall p i (Q : nat -> mem A -> Prop) m, p = Some i -> Q i m -> wp (@pointee A p) Q m.
Proof. intros p i Q m -> HQ. exact HQ. Qed.

Lemma wp_list_next : forall (p : node_pool V) it y (Q : nat -> mem A -> Prop) m, nxt (nodes p) it = Some y -> Q y m -> wp (list_next p it) Q m.
Proof.
  intros p it y Q m H HQ. unfold list_next. unfold nxt in H. destruct (nth_error (nodes p) it) eqn:E; [|discriminate].
  apply wp_bind. eapply wp_rd; eauto. eapply wp_pointee; eauto.
Qed.
Lemma wp_list_deref : forall (p : node_pool V) it v (Q : V -> mem A -> Prop) m, vl (nodes p) it = Val v -> Q v m -> wp (list_deref p it) Q m.
Proof.
  intros p it v Q m H HQ. unfold list_deref. unfold vl in H. destruct (nth_error (nodes p) it) eqn:E; [|discriminate].
  apply wp_bind. eapply wp_rd; eauto. rewrite H. exact HQ.
Qed.

(** * A list of sentinel [s] whose nodes are [ids] *)
Definition chain ns (s : nat) (ids : list nat) : Prop :=
  NoDup (s :: ids) /\ (forall x, In x (s :: ids) -> x < length ns) /\
  linked (fun x y => nxt ns x = Some y) (s :: ids ++ [s]) /\ linked (fun x y => prv ns y = Some x) (s :: ids ++ [s]).

Lemma chain_frame : forall ns ns' s ids, chain ns s ids -> length ns <= length ns' ->
  (forall x, In x (s :: ids) -> nxt ns' x = nxt ns x /\ prv ns' x = prv ns x) -> chain ns' s ids.
Proof.
  intros ns ns' s ids (H1 & H2 & H3 & H4) HL HF. split; [|split; [|split]]; auto.
  - intros x Hx. apply H2 in Hx. lia.
  - eapply linked_mono; [exact H3|]. intros l1 x y l2 E Hxy. cbv beta in *. rewrite <- Hxy. apply HF.
    assert (In x (s :: ids ++ [s])) as HI by (rewrite E; apply in_or_app; right; now left).
    simpl in *. rewrite in_app_iff in HI. simpl in HI. tauto.
  - eapply linked_mono; [exact H4|]. intros l1 x y l2 E Hxy. cbv beta in *. rewrite <- Hxy. apply HF.
    assert (In y (s :: ids ++ [s])) as HI by (rewrite E; apply in_or_app; right; right; now left).
    simpl in *. rewrite in_app_iff in HI. simpl in HI. tauto.
Qed.

(** The iterator to the first of the nodes [l], or the end. *)
Definition fst_or (s : nat) (l : list nat) : nat := hd s l.
Definition lst_or (s : nat) (l : list nat) : nat := last l s.

Lemma chain_begin : forall ns s ids, chain ns s ids -> nxt ns s = Some (fst_or s ids).
Proof. intros ns s ids (_ & _ & H & _). destruct ids; simpl in H; tauto. Qed.

Lemma chain_next : forall ns s l1 x l2, chain ns s (l1 ++ x :: l2) -> nxt ns x = Some (fst_or s l2).
Proof.
  intros ns s l1 x l2 (_ & _ & H & _).
  assert (s :: (l1 ++ x :: l2) ++ [s] = (s :: l1) ++ x :: fst_or s l2 :: tl (l2 ++ [s])) as E.
  { rewrite <- app_assoc. simpl. f_equal. f_equal. f_equal. destruct l2; reflexivity. }
  rewrite E in H. apply linked_at in H. exact H.
Qed.

Lemma chain_prev : forall ns s l1 l2, chain ns s (l1 ++ l2) -> prv ns (fst_or s l2) = Some (lst_or s l1).
Proof.
  intros ns s l1 l2 (_ & _ & _ & H).
  assert (s :: (l1 ++ l2) ++ [s] = removelast (s :: l1) ++ lst_or s l1 :: fst_or s l2 :: tl (l2 ++ [s])) as E.
  { assert (s :: l1 = removelast (s :: l1) ++ [lst_or s l1]) as E1.
    { rewrite (app_removelast_last s) at 1 by discriminate. f_equal. f_equal. unfold lst_or. destruct l1; reflexivity. }
    rewrite <- app_assoc. change (s :: l1 ++ l2 ++ [s]) with ((s :: l1) ++ l2 ++ [s]). rewrite E1 at 1. rewrite <- app_assoc. simpl. f_equal. f_equal.
    destruct l2; reflexivity. }
  rewrite E in H. apply linked_at in H. exact H.
Qed.

Lemma fst_or_in : forall s l, In (fst_or s l) (s :: l).
Proof. intros s [|x l]; simpl; auto. Qed.
Lemma lst_or_in : forall s l, In (lst_or s l) (s :: l).
Proof.
  intros s l. unfold lst_or. destruct l as [|y l]; [now left|]. right. rewrite (app_removelast_last s (l := y :: l)) at 2 by discriminate.
  apply in_or_app. right. now left.
Qed.

Lemma NoDup_app_l : forall X (a b : list X), NoDup (a ++ b) -> NoDup a.
Proof. induction a; simpl; intros b H; [constructor|]. inversion H; subst. constructor; [|eauto]. intros Hi. apply H2. apply in_or_app. auto. Qed.
Lemma NoDup_app_r : forall X (a b : list X), NoDup (a ++ b) -> NoDup b.
Proof. induction a; simpl; intros b H; auto. inversion H; subst. auto. Qed.
Lemma NoDup_app_disj : forall X (a b : list X) x, NoDup (a ++ b) -> In x a -> In x b -> False.
Proof. induction a; simpl; intros b x H Ha Hb; auto. inversion H; subst. destruct Ha as [->|Ha]; [apply H2; apply in_or_app; auto|eauto]. Qed.

Lemma fst_or_ne : forall s x l1 l2, NoDup (s :: x :: l1 ++ l2) -> x <> fst_or s l2.
Proof.
  intros s x l1 l2 H E. inversion H; subst. inversion H3; subst. destruct l2 as [|y l2]; unfold fst_or in *; simpl in *.
  - apply H2. now left.
  - apply H4. apply in_or_app. right. now left.
Qed.

Lemma list_distance_wp : forall (p : node_pool V) s l1 l2 first last (Q : nat -> mem A -> Prop) m, chain (nodes p) s (l1 ++ l2) ->
  first = fst_or s (l1 ++ l2) -> last = fst_or s l2 -> Q (length l1) m -> wp (list_distance p first last) Q m.
Proof.
  intros p s l1 l2 first last Q m HC -> -> HQ. unfold list_distance.
  assert (HLEN : length l1 <= length (nodes p)).
  { destruct HC as (ND & HB & _). assert (NoDup l1) as N1. { inversion ND; subst. eapply NoDup_app_l; eauto. }
    assert (incl l1 (seq 0 (length (nodes p)))). { intros x Hx. apply in_seq. specialize (HB x). simpl in HB. rewrite in_app_iff in HB. specialize (HB (or_intror (or_introl Hx))). lia. }
    apply NoDup_incl_length in H; auto. now rewrite seq_length in H. }
  apply wp_loop_k with (k := length l1) (I := fun k '(f, n) m' => m' = m /\ exists a b, l1 = a ++ b /\ f = fst_or s (b ++ l2) /\ n = length a /\ k = length b).
  - cj; auto. exists [], l1. auto.
  - lia.
  - intros k [f n] m' (-> & a & b & -> & -> & -> & ->). destruct b as [|x b].
    + simpl. rewrite Nat.eqb_refl. apply wp_ret. rewrite app_nil_r in HQ. exact HQ.
    + simpl app. unfold fst_or at 1. simpl hd. destruct (Nat.eqb_spec x (fst_or s l2)) as [E|E].
      * exfalso. revert E. apply fst_or_ne with (l1 := b). destruct HC as (ND & _). inversion ND; subst. rewrite <- app_assoc in *.
        constructor; [|eapply NoDup_app_r; eauto]. intros Hi. apply H1. apply in_or_app. right. exact Hi.
      * apply wp_bind. eapply wp_list_next. { eapply chain_next with (l1 := a) (l2 := b ++ l2). rewrite <- app_assoc in HC. exact HC. }
        apply wp_ret. exists (length b). split; [simpl; lia|]. split; auto. exists (a ++ [x]), b. rewrite <- app_assoc. cj; auto. rewrite app_length. simpl. lia.
Qed.

Lemma list_advance_wp : forall (p : node_pool V) s a b c it n (Q : nat -> mem A -> Prop) m, chain (nodes p) s (a ++ b ++ c) ->
  it = fst_or s (b ++ c) -> n = length b -> Q (fst_or s c) m -> wp (list_advance p it n) Q m.
Proof.
  intros p s a b c it n Q m HC -> -> HQ. unfold list_advance.
  apply wp_loop_k with (k := length b) (I := fun k '(f, n) m' => m' = m /\ exists b1 b2, b = b1 ++ b2 /\ f = fst_or s (b2 ++ c) /\ n = length b2 /\ k = length b2).
  - cj; auto. exists [], b. auto.
  - lia.
  - intros k [f n] m' (-> & b1 & b2 & -> & -> & -> & ->). destruct b2 as [|x b2].
    + apply wp_ret. exact HQ.
    + cbn [length Nat.eqb]. simpl app. unfold fst_or at 1. simpl hd. apply wp_bind. eapply wp_list_next.
      { eapply chain_next with (l1 := a ++ b1) (l2 := b2 ++ c). rewrite <- !app_assoc in *. exact HC. }
      apply wp_ret. exists (length b2). split; [lia|]. split; auto. exists (b1 ++ [x]), b2. rewrite <- app_assoc. cj; auto. simpl. lia.
Qed.

(** * The free nodes *)
Fixpoint freelist ns (f : option nat) (fs : list nat) : Prop :=
  match fs with
  | [] => f = None
  | x :: fs => f = Some x /\ x < length ns /\ vl ns x = Raw /\ freelist ns (nxt ns x) fs
  end.

Lemma freelist_frame : forall ns ns' fs f, freelist ns f fs -> length ns <= length ns' ->
  (forall x, In x fs -> nxt ns' x = nxt ns x /\ vl ns' x = vl ns x) -> freelist ns' f fs.
Proof.
  intros ns ns'. induction fs as [|x fs IH]; simpl; intros f H HL HF; auto. destruct H as (-> & H1 & H2 & H3).
  destruct (HF x (or_introl eq_refl)) as [E1 E2]. cj; auto; [lia|congruence|]. rewrite E1. apply IH; auto.
Qed.

(** * Insertion *)
Lemma link_node_before_wp : forall ns s l1 l2 x pos (Q : list (list_node V) -> mem A -> Prop) m, chain ns s (l1 ++ l2) ->
  pos = fst_or s l2 -> ~ In x (s :: l1 ++ l2) -> x < length ns ->
  (forall ns', length ns' = length ns -> chain ns' s (l1 ++ x :: l2) -> (forall j, vl ns' j = vl ns j) ->
     (forall j, ~ In j (x :: s :: l1 ++ l2) -> nxt ns' j = nxt ns j /\ prv ns' j = prv ns j) -> Q ns' m) ->
  wp (link_node_before ns x pos) Q m.
Proof.
  intros ns s l1 l2 x pos Q m HC -> Hx Hb HQ. unfold link_node_before.
  set (pos := fst_or s l2). set (q := lst_or s l1).
  assert (Hp : In pos (s :: l1 ++ l2)). { pose proof (fst_or_in s l2) as H. simpl in *. rewrite in_app_iff. tauto. }
  assert (Hq : In q (s :: l1 ++ l2)). { pose proof (lst_or_in s l1) as H. simpl in *. rewrite in_app_iff. tauto. }
  assert (Ep : prv ns pos = Some q) by (eapply chain_prev; eauto).
  destruct HC as (ND & HB & HN & HP).
  assert (Hpb := HB _ Hp). assert (Hqb := HB _ Hq).
  destruct (nth_some _ ns pos Hpb) as (n & En). apply wp_bind. eapply wp_rd; eauto.
  assert (prev n = Some q) as Eq. { unfold prv in Ep. rewrite En in Ep. exact Ep. } rewrite Eq.
  apply wp_bind. apply wp_set_prev; auto. intros ns1 L1 P1 N1 V1.
  apply wp_bind. apply wp_set_next; [lia|]. intros ns2 L2 N2 P2 V2.
  apply wp_bind. eapply wp_pointee; eauto.
  apply wp_bind. apply wp_set_next; [lia|]. intros ns3 L3 N3 P3 V3.
  apply wp_set_prev; [lia|]. intros ns4 L4 P4 N4 V4.
  assert (NX : forall j, nxt ns4 j = if j =? q then Some x else if j =? x then Some pos else nxt ns j).
  { intros j. rewrite N4, N3, N2, N1. reflexivity. }
  assert (PX : forall j, prv ns4 j = if j =? pos then Some x else if j =? x then Some q else prv ns j).
  { intros j. rewrite P4, P3, P2, P1. reflexivity. }
  clear N1 N2 N3 N4 P1 P2 P3 P4. assert (q <> x) by (intros ->; auto). assert (pos <> x) by (intros ->; auto).
  assert (s <> x) by (intros ->; apply Hx; now left).
  apply HQ; [lia| |intros; rewrite V4, V3, V2, V1; auto|].
  2:{ intros j Hj. rewrite NX, PX. destruct (Nat.eqb_spec j q) as [->|_]; [destruct Hj; right; exact Hq|]. destruct (Nat.eqb_spec j x) as [->|_]; [destruct Hj; now left|].
      destruct (Nat.eqb_spec j pos) as [->|_]; [destruct Hj; right; exact Hp|]. auto. }
  assert (E0 : s :: (l1 ++ l2) ++ [s] = (removelast (s :: l1) ++ [q]) ++ pos :: tl (l2 ++ [s])).
  { assert (s :: l1 = removelast (s :: l1) ++ [q]) as E1.
    { rewrite (app_removelast_last s) at 1 by discriminate. f_equal. f_equal. unfold q, lst_or. destruct l1; reflexivity. }
    rewrite <- E1. simpl. rewrite <- app_assoc. f_equal. f_equal. unfold pos. destruct l2; reflexivity. }
  assert (E0' : s :: (l1 ++ x :: l2) ++ [s] = (removelast (s :: l1) ++ [q]) ++ x :: pos :: tl (l2 ++ [s])).
  { assert (s :: l1 = removelast (s :: l1) ++ [q]) as E1.
    { rewrite (app_removelast_last s) at 1 by discriminate. f_equal. f_equal. unfold q, lst_or. destruct l1; reflexivity. }
    rewrite <- E1. simpl. rewrite <- app_assoc. f_equal. simpl. f_equal. f_equal. unfold pos. destruct l2; reflexivity. }
  assert (NDF : NoDup (removelast (s :: (l1 ++ l2) ++ [s]))).
  { change (s :: (l1 ++ l2) ++ [s]) with ((s :: l1 ++ l2) ++ [s]). rewrite removelast_last. exact ND. }
  assert (NDT : NoDup (tl (s :: (l1 ++ l2) ++ [s]))).
  { simpl. apply (Permutation_NoDup (l := s :: l1 ++ l2)); auto. apply Permutation_cons_append. }
  assert (HIN : forall z, In z ((removelast (s :: l1) ++ [q]) ++ pos :: tl (l2 ++ [s])) -> z <> x).
  { rewrite <- E0. intros z Hz ->. simpl in Hz. rewrite in_app_iff in Hz. apply Hx. simpl. simpl in Hz. tauto. }
  rewrite E0 in NDF, NDT, HN, HP. set (a := removelast (s :: l1)) in *. set (c := tl (l2 ++ [s])) in *.
  split; [|split; [|split]].
  - constructor.
    + inversion ND; subst. rewrite in_app_iff in *. simpl. intuition congruence.
    + apply Permutation_NoDup with (l := x :: l1 ++ l2); [apply Permutation_middle|]. inversion ND; subst. constructor; auto. simpl in Hx. tauto.
  - intros z Hz. rewrite L4, L3, L2, L1. simpl in Hz. rewrite in_app_iff in Hz. simpl in Hz. destruct Hz as [->|[Hz|[->|Hz]]]; auto; apply HB; simpl; rewrite in_app_iff; auto.
  - rewrite E0'. apply linked_app. apply linked_app in HN as [HN1 HN2]. rewrite <- app_assoc in HN1. rewrite <- app_assoc. simpl app in HN1 |- *. apply linked_app in HN1 as [HN1 _].
    split.
    + apply linked_app. split; [|simpl; split; auto; rewrite NX, Nat.eqb_refl; auto].
      eapply linked_mono; [exact HN1|]. intros u y z w E HR. cbv beta in *. rewrite NX.
      assert (In y a) as Ha. { assert (a = removelast (u ++ y :: z :: w)) as -> by (rewrite <- E; rewrite removelast_last; auto).
        change (y :: z :: w) with ([y] ++ z :: w). rewrite app_assoc, removelast_app by discriminate. apply in_or_app. left. apply in_or_app. right. now left. }
      destruct (Nat.eqb_spec y q) as [->|_].
      { exfalso. rewrite <- app_assoc in NDF. simpl app in NDF. rewrite removelast_app in NDF by discriminate. eapply NoDup_app_disj; [exact NDF|exact Ha|]. destruct c; now left. }
      destruct (Nat.eqb_spec y x) as [->|_]; auto. exfalso. apply (HIN x); auto. rewrite <- app_assoc. apply in_or_app. auto.
    + change (x :: pos :: c) with ([x] ++ pos :: c). apply linked_app. split.
      { simpl. split; auto. rewrite NX, Nat.eqb_refl. destruct (Nat.eqb_spec x q); auto; congruence. }
      eapply linked_mono; [exact HN2|]. intros u y z w E HR. cbv beta in *. rewrite NX.
      assert (In y (removelast (pos :: c))) as Ha. { rewrite E. change (y :: z :: w) with ([y] ++ z :: w). rewrite app_assoc, removelast_app by discriminate. apply in_or_app. left. apply in_or_app. right. now left. }
      destruct (Nat.eqb_spec y q) as [->|_].
      { exfalso. rewrite removelast_app in NDF by discriminate. eapply NoDup_app_disj; [exact NDF| |exact Ha]. apply in_or_app. right. now left. }
      destruct (Nat.eqb_spec y x) as [->|_]; auto. exfalso. apply (HIN x); auto. apply in_or_app. right. rewrite E. apply in_or_app. right. now left.
  - rewrite E0'. apply linked_app. apply linked_app in HP as [HP1 HP2]. rewrite <- app_assoc in HP1. rewrite <- app_assoc. simpl app in HP1 |- *. apply linked_app in HP1 as [HP1 _].
    assert (HT : NoDup (tl (a ++ q :: nil) ++ pos :: c)). { destruct a; exact NDT. }
    split.
    + apply linked_app. split; [|simpl; split; auto; rewrite PX; destruct (Nat.eqb_spec x pos); [congruence|]; rewrite Nat.eqb_refl; auto].
      eapply linked_mono; [exact HP1|]. intros u y z w E HR. cbv beta in *. rewrite PX.
      assert (In z (tl (a ++ [q]))) as Ha. { rewrite E. destruct u; simpl; auto. apply in_or_app. right. right. now left. }
      destruct (Nat.eqb_spec z pos) as [->|_].
      { exfalso. eapply NoDup_app_disj; [exact HT|exact Ha|]. now left. }
      destruct (Nat.eqb_spec z x) as [->|_]; auto. exfalso. apply (HIN x); auto. apply in_or_app. left. rewrite E. apply in_or_app. right. right. now left.
    + change (x :: pos :: c) with ([x] ++ pos :: c). apply linked_app. split.
      { simpl. split; auto. rewrite PX, Nat.eqb_refl. auto. }
      eapply linked_mono; [exact HP2|]. intros u y z w E HR. cbv beta in *. rewrite PX.
      assert (In z c) as Ha. { destruct u; injection E as E1 E2; rewrite E2; [now left|]. apply in_or_app. right. right. now left. }
      destruct (Nat.eqb_spec z pos) as [->|_].
      { exfalso. apply NoDup_app_r in HT. inversion HT; auto. }
      destruct (Nat.eqb_spec z x) as [->|_]; auto. exfalso. apply (HIN x); auto. apply in_or_app. right. now right.
Qed.

Lemma insert_node_wp : forall (p : node_pool V) s l1 l2 x fs pos v (Q : nat * node_pool V -> mem A -> Prop) m, chain (nodes p) s (l1 ++ l2) ->
  pos = fst_or s l2 -> freelist (nodes p) (first_free p) (x :: fs) -> NoDup ((s :: l1 ++ l2) ++ x :: fs) ->
  (forall p', length (nodes p') = length (nodes p) -> capacity p' = capacity p -> chain (nodes p') s (l1 ++ x :: l2) -> freelist (nodes p') (first_free p') fs ->
     (forall j, vl (nodes p') j = if j =? x then Val v else vl (nodes p) j) ->
     (forall j, ~ In j (x :: s :: l1 ++ l2) -> nxt (nodes p') j = nxt (nodes p) j /\ prv (nodes p') j = prv (nodes p) j) -> Q (x, p') m) ->
  wp (insert_node p pos v) Q m.
Proof.
  intros p s l1 l2 x fs pos v Q m HC -> HF ND HQ. unfold insert_node, next_free_node. simpl in HF. destruct HF as (E1 & E2 & E3 & E4).
  destruct (nth_some _ (nodes p) x E2) as (n & En).
  apply wp_bind, wp_bind. eapply wp_pointee; eauto. apply wp_bind. eapply wp_rd; eauto. apply wp_ret. cbn [nodes].
  apply wp_bind. apply wp_set_value; auto. intros ns1 L1 V1 N1 P1.
  assert (Hx : ~ In x (s :: l1 ++ l2)). { apply NoDup_remove_2 in ND. rewrite in_app_iff in ND. tauto. }
  apply wp_bind. eapply link_node_before_wp with (l1 := l1) (l2 := l2); eauto; [|lia|].
  { eapply chain_frame; [exact HC|lia|]. auto. }
  intros ns2 L2 C2 V2 F2. apply wp_ret. apply HQ; cbn [nodes capacity first_free with_nodes]; auto; [lia| | |].
  - unfold nxt in E4. rewrite En in E4. eapply freelist_frame; [exact E4|lia|]. intros y Hy.
    assert (~ In y (x :: s :: l1 ++ l2)) as Hn.
    { intros [->|Hi].
      - apply NoDup_app_r in ND. inversion ND; auto.
      - eapply NoDup_app_disj; [exact ND|exact Hi|]. now right. }
    destruct (F2 _ Hn) as [F3 _]. rewrite F3, N1, V2, V1. destruct (Nat.eqb_spec y x) as [->|_]; auto. destruct Hn. now left.
  - intros j. rewrite V2, V1. auto.
  - intros j Hj. destruct (F2 _ Hj) as [-> ->]. rewrite N1, P1. auto.
Qed.

(** * Creation and destruction *)
Lemma nxt_app : forall ns e j, j < length ns -> nxt (ns ++ e) j = nxt ns j.
Proof. intros. unfold nxt. now rewrite nth_error_app1. Qed.
Lemma prv_app : forall ns e j, j < length ns -> prv (ns ++ e) j = prv ns j.
Proof. intros. unfold prv. now rewrite nth_error_app1. Qed.
Lemma vl_app : forall ns e j, j < length ns -> vl (ns ++ e) j = vl ns j.
Proof. intros. unfold vl. now rewrite nth_error_app1. Qed.

Lemma new_list_chain : forall p s p', new_list p = (s, p') -> s = length (@nodes V p) /\ chain (nodes p') s [] /\ length (nodes p') = S s /\
  first_free p' = first_free p /\ capacity p' = capacity p /\
  (forall j, j < s -> nxt (nodes p') j = nxt (nodes p) j /\ prv (nodes p') j = prv (nodes p) j /\ vl (nodes p') j = vl (nodes p) j).
Proof.
  intros p s p' H. unfold new_list in H. injection H as <- <-. cbn [nodes with_nodes first_free capacity]. cj; auto.
  - split; [|split; [|split]].
    + constructor; auto. constructor.
    + intros x [<-|[]]. rewrite app_length. simpl. lia.
    + simpl. split; auto. unfold nxt. rewrite nth_error_app2, Nat.sub_diag by lia. reflexivity.
    + simpl. split; auto. unfold prv. rewrite nth_error_app2, Nat.sub_diag by lia. reflexivity.
  - rewrite app_length. simpl. lia.
  - intros j Hj. rewrite nxt_app, prv_app, vl_app; auto.
Qed.

Lemma nth_error_firstn' : forall X (l : list X) k j, j < k -> nth_error (firstn k l) j = nth_error l j.
Proof.
  intros X l k j H. rewrite <- (firstn_skipn k l) at 2. destruct (Nat.lt_ge_cases j (length (firstn k l))) as [E|E].
  - now rewrite nth_error_app1.
  - rewrite firstn_length in E. rewrite (skipn_all2 l) by lia. now rewrite app_nil_r.
Qed.
Lemma nxt_firstn : forall ns k j, j < k -> nxt (firstn k ns) j = nxt ns j.
Proof. intros. unfold nxt. now rewrite nth_error_firstn'. Qed.
Lemma prv_firstn : forall ns k j, j < k -> prv (firstn k ns) j = prv ns j.
Proof. intros. unfold prv. now rewrite nth_error_firstn'. Qed.
Lemma vl_firstn : forall ns k j, j < k -> vl (firstn k ns) j = vl ns j.
Proof. intros. unfold vl. now rewrite nth_error_firstn'. Qed.

Lemma fwd_next : forall ns s l1 x l2, linked (fun x y => nxt ns x = Some y) (s :: (l1 ++ x :: l2) ++ [s]) -> nxt ns x = Some (fst_or s l2).
Proof.
  intros ns s l1 x l2 H.
  assert (s :: (l1 ++ x :: l2) ++ [s] = (s :: l1) ++ x :: fst_or s l2 :: tl (l2 ++ [s])) as E.
  { rewrite <- app_assoc. simpl. f_equal. f_equal. f_equal. destruct l2; reflexivity. }
  rewrite E in H. apply linked_at in H. exact H.
Qed.

(** Only the links to the next nodes matter; [b] is the last node for the sentinel. *)
Lemma destroy_list_wp : forall (p : node_pool V) s ids b (Q : node_pool V -> mem A -> Prop) m, NoDup (s :: ids) -> (forall x, In x (s :: ids) -> x < length (nodes p)) ->
  linked (fun x y => nxt (nodes p) x = Some y) (s :: ids ++ [s]) -> prv (nodes p) s = Some b -> b < length (nodes p) ->
  (forall j, In j ids -> vl (nodes p) j <> Raw) ->
  (forall p', length (nodes p') = length (nodes p) -> capacity p' = capacity p ->
     first_free p' = (match ids with [] => first_free p | x :: _ => Some x end) ->
     (forall j, nxt (nodes p') j = match ids with [] => nxt (nodes p) j | _ => if j =? b then first_free p else nxt (nodes p) j end) ->
     (forall j, prv (nodes p') j = prv (nodes p) j) ->
     (forall j, In j ids -> vl (nodes p') j = Raw) -> (forall j, ~ In j ids -> vl (nodes p') j = vl (nodes p) j) -> Q p' m) ->
  wp (destroy_list p s) Q m.
Proof.
  intros p s ids b Q m ND HIN HC HP Hb HRAW HQ. unfold destroy_list. destruct (nth_some _ (nodes p) s (HIN s (or_introl eq_refl))) as (sn & Es).
  assert (HB : nxt (nodes p) s = Some (fst_or s ids)). { destruct ids; simpl in HC; tauto. } assert (HB' := HB). unfold nxt in HB. rewrite Es in HB.
  apply wp_bind. eapply wp_rd; eauto. apply wp_bind. eapply wp_pointee; eauto.
  destruct ids as [|x ids].
  { simpl. rewrite Nat.eqb_refl. apply wp_ret. apply HQ; auto. intros j []. }
  unfold fst_or. simpl hd.
  destruct (Nat.eqb_spec x s) as [->|Hxs]. { exfalso. inversion ND; subst. apply H1. now left. }
  assert (HLE : length (x :: ids) <= length (nodes p)).
  { assert (incl (x :: ids) (seq 0 (length (nodes p)))) as HI. { intros z Hz. apply in_seq. specialize (HIN z (or_intror Hz)). lia. }
    apply NoDup_incl_length in HI; [|inversion ND; auto]. now rewrite seq_length in HI. }
  apply wp_bind.
  apply wp_loop_k with (k := length ids) (I := fun k '(ptr, ns) m' => m' = m /\ exists a b, x :: ids = a ++ ptr :: b /\ k = length b /\ length ns = length (nodes p) /\
     (forall j, nxt ns j = nxt (nodes p) j /\ prv ns j = prv (nodes p) j) /\ (forall j, In j a -> vl ns j = Raw) /\ (forall j, ~ In j a -> vl ns j = vl (nodes p) j)).
  { split; auto. exists [], ids. cj; auto. intros j []. }
  { simpl in HLE. lia. }
  intros k [ptr ns] m' (-> & a & b' & E & -> & HLn & HNP & HV1 & HV2).
  assert (Hpt : ptr < length ns). { rewrite HLn. apply HIN. right. rewrite E. apply in_or_app. right. now left. }
  destruct (nth_some _ ns ptr Hpt) as (pn & Ep). apply wp_bind. eapply wp_rd; eauto.
  assert (HNR : value pn <> Raw).
  { assert (vl ns ptr = value pn) as <- by (unfold vl; now rewrite Ep). rewrite HV2.
    - apply HRAW. rewrite E. apply in_or_app. right. now left.
    - inversion ND; subst. rewrite E in H2. apply NoDup_remove_2 in H2. rewrite in_app_iff in H2. tauto. }
  apply wp_bind. unfold destroy_node_contents. apply wp_bind. eapply wp_rd; eauto.
  assert (forall Q, wp (@set_value A V ns ptr Raw) Q m -> wp (match value pn with Raw => ub | _ => @set_value A V ns ptr Raw end) Q m) as HM.
  { intros Q' H'. destruct (value pn); auto. congruence. }
  apply HM. clear HM. apply wp_set_value; auto. intros ns1 L1 V1 N1 P1.
  assert (HNx : next pn = Some (fst_or s b')). { assert (nxt ns ptr = Some (fst_or s b')). { rewrite (proj1 (HNP ptr)). eapply fwd_next. rewrite <- E. exact HC. } unfold nxt in H. rewrite Ep in H. exact H. }
  assert (HVA1 : forall j, In j (a ++ [ptr]) -> vl ns1 j = Raw).
  { intros j Hj. rewrite V1. destruct (Nat.eqb_spec j ptr); auto. apply HV1. rewrite in_app_iff in Hj. simpl in Hj. intuition congruence. }
  assert (HVA2 : forall j, ~ In j (a ++ [ptr]) -> vl ns1 j = vl (nodes p) j).
  { intros j Hj. rewrite in_app_iff in Hj. rewrite V1. destruct (Nat.eqb_spec j ptr) as [->|]. { destruct Hj. right. now left. } apply HV2. tauto. }
  assert (HNP1 : forall j, nxt ns1 j = nxt (nodes p) j /\ prv ns1 j = prv (nodes p) j). { intros j. rewrite N1, P1. apply HNP. }
  apply wp_bind. eapply wp_pointee; eauto. destruct b' as [|y b'].
  2:{ unfold fst_or. simpl hd. destruct (Nat.eqb_spec y s) as [->|_].
      { exfalso. inversion ND; subst. apply H1. rewrite E. apply in_or_app. right. right. now left. }
      apply wp_ret. exists (length b'). split; [simpl; lia|]. split; auto. exists (a ++ [ptr]), b'. rewrite <- app_assoc. cj; auto. lia. }
  simpl fst_or. rewrite Nat.eqb_refl. apply wp_ret. cbn [nodes]. rewrite <- E in *.
  assert (Hs : s < length (nodes p)) by (apply HIN; now left).
  destruct (nth_some _ ns1 s ltac:(lia)) as (sn1 & Es1).
  destruct (HNP1 s) as [F1 F2]. unfold nxt at 1 in F1. unfold prv at 1 in F2. rewrite Es1 in F1, F2.
  apply wp_bind. eapply wp_rd; eauto. apply wp_bind. eapply wp_pointee. { rewrite F1. exact HB'. }
  apply wp_bind. eapply wp_pointee. { rewrite F2. exact HP. }
  unfold retrieve_nodes. apply wp_bind. cbn [nodes with_nodes first_free capacity].
  apply wp_set_next; [lia|]. intros ns2 L2 N2 P2 V2. apply wp_ret.
  apply HQ; cbn [nodes capacity with_nodes first_free]; auto.
  - lia.
  - intros j. rewrite N2. destruct (j =? b); auto. apply HNP1.
  - intros j. rewrite P2. apply HNP1.
  - intros j Hj. rewrite V2. apply HVA1. exact Hj.
  - intros j Hj. rewrite V2. apply HVA2. exact Hj.
Qed.

Lemma chain_prev_end : forall ns s ids, chain ns s ids -> prv ns s = Some (lst_or s ids).
Proof. intros ns s ids HC. apply (chain_prev ns s ids []). now rewrite app_nil_r. Qed.

Lemma delete_list_wp : forall (p : node_pool V) s ids (Q : node_pool V -> mem A -> Prop) m, chain (nodes p) s ids -> length (nodes p) = S s ->
  (forall j, In j ids -> vl (nodes p) j <> Raw) ->
  (forall p', length (nodes p') = s -> capacity p' = capacity p ->
     (forall j, In j ids -> vl (nodes p') j = Raw) ->
     (forall j, j < s -> ~ In j ids -> nxt (nodes p') j = nxt (nodes p) j /\ prv (nodes p') j = prv (nodes p) j /\ vl (nodes p') j = vl (nodes p) j) -> Q p' m) ->
  wp (delete_list p s) Q m.
Proof.
  intros p s ids Q m HC HL HR HQ. unfold delete_list. assert (HC' := HC). destruct HC' as (ND & HIN & HF & _). apply wp_bind.
  eapply destroy_list_wp; eauto. { apply (chain_prev_end _ _ _ HC). } { apply HIN. apply lst_or_in. }
  intros p1 L1 C1 F1 N1 P1 V1 V2. apply wp_bind. apply wp_assert. { apply Nat.eqb_eq. lia. } apply wp_ret.
  assert (HIS : forall j, In j ids -> j < s).
  { intros j Hj. pose proof (HIN j (or_intror Hj)). assert (j <> s). { intros ->. inversion ND; auto. } lia. }
  apply HQ; cbn [nodes capacity with_nodes]; auto.
  - rewrite firstn_length. lia.
  - intros j Hj. rewrite vl_firstn by auto. auto.
  - intros j Hj Hn. rewrite nxt_firstn, prv_firstn, vl_firstn by auto. rewrite N1, P1, V2 by auto. cj; auto. destruct ids as [|x ids]; auto.
    destruct (Nat.eqb_spec j (lst_or s (x :: ids))) as [->|]; auto. pose proof (lst_or_in s (x :: ids)) as [E|E]; [lia|tauto].
Qed.

(** * A pool whose nodes are all free, in order *)
Definition pristine (p : node_pool V) (cap : nat) : Prop :=
  length (nodes p) = cap /\ capacity p = cap /\ first_free p = Some 0 /\
  (forall j, j < cap -> nxt (nodes p) j = (if j =? cap - 1 then None else Some (S j)) /\ vl (nodes p) j = Raw).

Lemma new_pool_wp : forall cap (Q : node_pool V -> mem A -> Prop) m, 0 < cap -> (forall p, pristine p cap -> Q p m) -> wp (new_pool cap) Q m.
Proof.
  intros cap Q m H HQ. unfold new_pool. apply wp_bind. apply wp_assert. { now apply Nat.ltb_lt. } apply wp_ret. apply HQ. unfold pristine. cbn [nodes capacity first_free].
  cj; auto. { rewrite map_length, seq_length. auto. }
  intros j Hj. unfold nxt, vl. rewrite nth_map_seq by auto. auto.
Qed.

Lemma freelist_seq : forall ns cap k, 0 < cap -> length ns >= cap -> k <= cap ->
  (forall j, cap - k <= j < cap -> nxt ns j = (if j =? cap - 1 then None else Some (S j)) /\ vl ns j = Raw) ->
  freelist ns (if k =? 0 then None else Some (cap - k)) (seq (cap - k) k).
Proof.
  intros ns cap k Hc HL. induction k as [|k IH]; intros Hk HF; [reflexivity|].
  change (seq (cap - S k) (S k)) with (cap - S k :: seq (S (cap - S k)) k). replace (S (cap - S k)) with (cap - k) by lia.
  cbn [freelist Nat.eqb]. destruct (HF (cap - S k)) as [E1 E2]; [lia|]. cj; auto; [lia|]. rewrite E1.
  destruct k as [|k].
  - rewrite Nat.eqb_refl. reflexivity.
  - destruct (Nat.eqb_spec (cap - S (S k)) (cap - 1)); [lia|]. replace (S (cap - S (S k))) with (cap - S k) by lia.
    apply IH; [lia|]. intros j Hj. apply HF. lia.
Qed.

Lemma pristine_freelist : forall p cap, 0 < cap -> pristine p cap -> freelist (nodes p) (first_free p) (seq 0 cap).
Proof.
  intros p cap Hc (H1 & H2 & H3 & H4). rewrite H3. pose proof (freelist_seq (nodes p) cap cap Hc) as H. rewrite Nat.sub_diag in H.
  destruct (Nat.eqb_spec cap 0); [lia|]. apply H; try lia. intros j Hj. apply H4. lia.
Qed.

Lemma reset_nodes_wp : forall (p : node_pool V) n (Q : node_pool V -> mem A -> Prop) m, 0 < n -> n <= capacity p -> length (nodes p) = capacity p ->
  (forall j, n <= j < capacity p -> nxt (nodes p) j = if j =? capacity p - 1 then None else Some (S j)) ->
  (forall j, j < capacity p -> vl (nodes p) j = Raw) ->
  (forall p', pristine p' (capacity p) -> Q p' m) -> wp (reset_nodes p n) Q m.
Proof.
  intros p n Q m Hn Hc HL HF HV HQ. unfold reset_nodes. apply wp_bind.
  apply wp_loop_k with (k := n - 1) (I := fun k '(i, ptr, ns) m' => m' = m /\ i = ptr /\ i <= n - 1 /\ k = n - 1 - i /\ length ns = capacity p /\
     (forall j, vl ns j = vl (nodes p) j) /\ (forall j, j < i -> nxt ns j = Some (S j)) /\ (forall j, i <= j -> nxt ns j = nxt (nodes p) j)).
  - cj; auto; lia.
  - lia.
  - intros k [[i ptr] ns] m' (-> & <- & Hi & -> & L1 & V1 & N1 & N2). destruct (Nat.ltb_spec i (n - 1)).
    + apply wp_bind. apply wp_set_next; [lia|]. intros ns2 L2 N3 P3 V3. apply wp_ret. exists (n - 1 - S i). split; [lia|]. cj; auto; try lia.
      * intros j. now rewrite V3, V1.
      * intros j Hj. rewrite N3. destruct (Nat.eqb_spec j i) as [->|]; auto. apply N1. lia.
      * intros j Hj. rewrite N3. destruct (Nat.eqb_spec j i) as [->|]; [lia|]. apply N2. lia.
    + apply wp_ret. apply wp_bind. apply wp_set_next; [lia|]. intros ns2 L2 N3 P3 V3. apply wp_ret. apply HQ.
      unfold pristine. cbn [nodes capacity first_free]. cj; auto; [lia|]. intros j Hj. rewrite V3, V1, N3. split; [|auto].
      destruct (Nat.eqb_spec j i) as [->|]. { destruct (Nat.eqb_spec n (capacity p)), (Nat.eqb_spec i (capacity p - 1)); auto; lia. }
      destruct (Nat.lt_ge_cases j i).
      * rewrite N1 by auto. destruct (Nat.eqb_spec j (capacity p - 1)); auto. lia.
      * rewrite N2 by lia. apply HF. lia.
Qed.
End Lists.
