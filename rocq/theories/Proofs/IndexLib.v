(** Index-style reasoning: predicates on single cells, swaps, scans. *)
From Coq Require Import List Arith Lia Permutation Bool.
From Verif Require Import Spec.Order Lang.Mem Spec.Sorts Proofs.Wp Proofs.OrderLib Model.Basic Proofs.Basic.
Import ListNotations.

(** The transposition of [i] and [j]. *)
Definition tr (i j k : nat) : nat := if k =? i then j else if k =? j then i else k.

Lemma tr_l : forall i j, tr i j i = j.
Proof. intros. unfold tr. now rewrite Nat.eqb_refl. Qed.
Lemma tr_r : forall i j, tr i j j = i.
Proof. intros. unfold tr. destruct (Nat.eqb_spec j i); auto. now rewrite Nat.eqb_refl. Qed.
Lemma tr_o : forall i j k, k <> i -> k <> j -> tr i j k = k.
Proof. intros. unfold tr. destruct (Nat.eqb_spec k i), (Nat.eqb_spec k j); congruence. Qed.
Lemma tr_cases : forall i j k,
  (k = i /\ tr i j k = j) \/ (k = j /\ k <> i /\ tr i j k = i) \/ (k <> i /\ k <> j /\ tr i j k = k).
Proof. intros. unfold tr. destruct (Nat.eqb_spec k i), (Nat.eqb_spec k j); subst; auto. Qed.

Lemma upd_past : forall X i (x : X) l, length l <= i -> upd i x l = l.
Proof. intros X i x l; revert i; induction l; destruct i; simpl; intros; auto; try lia. f_equal. apply IHl. lia. Qed.

Section IndexLib.
Context {A : Type}.
Implicit Types m W : mem A.

Definition holds (P : A -> Prop) m (k : nat) : Prop := exists a, nth_error m k = Some (Val a) /\ P a.
Definition swapped (i j : nat) m m' : Prop := forall k, nth_error m' k = nth_error m (tr i j k).

Lemma holds_ext : forall (P : A -> Prop) m m' k k', nth_error m' k' = nth_error m k -> holds P m k -> holds P m' k'.
Proof. intros P m m' k k' E (a & H & HP). exists a. split; auto. congruence. Qed.

Lemma holds_weaken : forall (P P' : A -> Prop) m k, holds P m k -> (forall a, P a -> P' a) -> holds P' m k.
Proof. intros P P' m k (a & H & HP) HH. exists a. auto. Qed.

Lemma holds_val : forall (P : A -> Prop) m k a, holds P m k -> nth_error m k = Some (Val a) -> P a.
Proof. intros P m k a (b & H & HP) E. congruence. Qed.

Lemma full_holds : forall (P : A -> Prop) f l m, l <= length m -> (forall k, f <= k < l -> holds P m k) -> full f l m.
Proof. intros. split; auto. intros k Hk. destruct (H0 k Hk) as (a & Ha & _). eauto. Qed.

Lemma holds_range_all : forall (P : A -> Prop) f l m, (forall k, f <= k < l -> holds P m k) -> range_all P f l m.
Proof. intros P f l m H k a Hk Ha. eapply holds_val; eauto. Qed.

Lemma range_all_holds : forall (P : A -> Prop) f l m k, full f l m -> range_all P f l m -> f <= k < l -> holds P m k.
Proof. intros P f l m k Hf HR Hk. destruct (proj2 Hf k Hk) as (a & Ha). exists a. split; auto. eapply HR; eauto. Qed.

Lemma range_all_ext : forall (P : A -> Prop) f l m m', (forall k, f <= k < l -> nth_error m' k = nth_error m k) ->
  range_all P f l m -> range_all P f l m'.
Proof. intros P f l m m' H HR k a Hk Ha. rewrite H in Ha by auto. eauto. Qed.

Lemma swapped_upd : forall i j a b m, nth_error m i = Some a -> nth_error m j = Some b ->
  swapped i j m (upd j a (upd i b m)).
Proof.
  intros i j a b m Hi Hj k. pose proof (nth_lt _ _ _ Hi). pose proof (nth_lt _ _ _ Hj).
  destruct (tr_cases i j k) as [[-> ->]|[(-> & Hn & ->)|(H1 & H2 & ->)]].
  - destruct (Nat.eq_dec i j) as [->|]; nupd; congruence.
  - nupd. congruence.
  - nupd. auto.
Qed.

Lemma swapped_length : forall i j m m', swapped i j m m' -> i < length m -> j < length m -> length m' = length m.
Proof.
  intros i j m m' H Hi Hj.
  assert (forall k, nth_error m' k = None <-> nth_error m k = None) as HN.
  { intros k. rewrite H. destruct (tr_cases i j k) as [[-> ->]|[(-> & Hn & ->)|(H1 & H2 & ->)]]; [| |tauto];
    rewrite !nth_error_None; lia. }
  pose proof (HN (length m)) as H1. pose proof (HN (length m')) as H2.
  rewrite !nth_error_None in *. destruct H1, H2. lia.
Qed.

Lemma wp_swap_pm : forall f l i j m (Q : unit -> mem A -> Prop), full f l m -> f <= i < l -> f <= j < l ->
  (forall m', pm f l m m' -> swapped i j m m' -> Q tt m') -> wp (swap i j) Q m.
Proof.
  intros f l i j m Q Hf Hi Hj HQ. rdv Hf i x Hx. rdv Hf j y Hy.
  eapply wp_swap; eauto. apply HQ.
  - eapply pm_swap; eauto.
  - apply swapped_upd; auto.
Qed.

(** Moving a cell into the hole is a swap in the memory without the hole. *)
Lemma wp_move_hole_pm : forall f l s k t m (Q : unit -> mem A -> Prop), full f l m -> f <= s < l -> f <= k < l -> s <> k ->
  nth_error m s = Some (Val t) ->
  (forall m', pm f l m m' -> swapped s k m m' -> nth_error m' k = Some (Val t) -> Q tt (upd k Moved m')) ->
  wp (move_to k s) Q (upd s Moved m).
Proof.
  intros f l s k t m Q Hf Hs Hk Hne Ht HQ. rdv Hf k y Hy.
  eapply wp_move_hole; eauto.
  rewrite (upd_comm s k (Val y) (Val t)) by auto. apply HQ.
  - eapply pm_swap; eauto.
  - apply swapped_upd; auto.
  - pose proof (proj1 Hf). nupd. reflexivity.
Qed.

(** Changing a cell outside the permuted range. *)
Lemma pm_upd_out : forall f l k c m m', pm f l m m' -> k < f \/ l <= k -> pm f l (upd k c m) (upd k c m').
Proof.
  intros f l k c m m' [[HL HO] HP] Hk. split.
  - split. { now rewrite !upd_length. }
    intros j Hj. rewrite !nth_upd, HL. destruct (k =? j); auto.
  - destruct (nth_error m k) as [d|] eqn:E.
    + pose proof (HO k Hk) as E'. rewrite E in E'.
      apply list_split_nth in E as (a1 & a2 & -> & <-).
      apply list_split_nth in E' as (b1 & b2 & -> & Hb).
      rewrite upd_mid. rewrite <- Hb at 1. rewrite upd_mid.
      apply Permutation_app_inv in HP.
      rewrite <- !Permutation_middle. now constructor.
    + rewrite !upd_past; auto.
      * apply nth_error_None in E. lia.
      * now apply nth_error_None.
Qed.
End IndexLib.

(** Case analysis on every transposition in sight. *)
Ltac trc :=
  repeat match goal with
  | |- context [tr ?i ?j ?k] => 
      let E := fresh "T" in destruct (tr_cases i j k) as [[? E]|[(? & ? & E)|(? & ? & E)]]; rewrite ?E in *; clear E
  | H : context [tr ?i ?j ?k] |- _ => 
      let E := fresh "T" in destruct (tr_cases i j k) as [[? E]|[(? & ? & E)|(? & ? & E)]]; rewrite ?E in *; clear E
  end.

Section Sort3.
Context {A T : Type} (comp : T -> T -> bool) (proj : A -> T).
Notation lt := (by_proj comp proj).

Lemma wp_less_at_full : forall f l i j m (Q : bool -> mem A -> Prop), full f l m -> f <= i < l -> f <= j < l ->
  (forall x y, nth_error m i = Some (Val x) -> nth_error m j = Some (Val y) -> Q (lt x y) m) ->
  wp (less_at comp proj i j) Q m.
Proof. intros f l i j m Q Hf Hi Hj HQ. rdv Hf i x Hx. rdv Hf j y Hy. eapply wp_less_at; eauto. Qed.

(** After [iter_swap_if] the two cells are in order. *)
Lemma wp_iter_swap_if_pm : forall f l i j m (Q : unit -> mem A -> Prop), full f l m -> f <= i < l -> f <= j < l -> i <> j ->
  strict_weak_order lt ->
  (forall m' x y, pm f l m m' -> nth_error m' i = Some (Val x) -> nth_error m' j = Some (Val y) ->
     lt y x = false -> (swapped i j m m' \/ m' = m) -> Q tt m') ->
  wp (iter_swap_if comp proj i j) Q m.
Proof.
  intros f l i j m Q Hf Hi Hj Hne HW HQ. rdv Hf i x Hx. rdv Hf j y Hy.
  eapply wp_iter_swap_if; eauto. destruct (lt y x) eqn:E.
  - pose proof (swapped_upd i j _ _ m Hx Hy) as HS.
    eapply HQ with (x := y) (y := x).
    + eapply pm_swap; eauto.
    + rewrite HS, tr_l. auto.
    + rewrite HS, tr_r. auto.
    + apply lt_asym; auto.
    + auto.
  - eapply HQ with (x := x) (y := y); auto using pm_refl.
Qed.
End Sort3.
