(** Paths in a table of doubly linked nodes. *)
From Coq Require Import List Arith Lia Permutation Bool.
From Verif Require Import Spec.Order Lang.Mem Proofs.Wp Proofs.OrderLib Model.Indirect Proofs.Indirect Model.Select Proofs.Select Model.FixedList Proofs.FixedList.
Import ListNotations.
Local Arguments nth_error : simpl never.
Local Arguments upd : simpl never.

(** * Lists without duplicates, by counting *)
Definition cnt (l : list nat) (x : nat) : nat := count_occ Nat.eq_dec l x.
Lemma cnt_nil : forall x, cnt [] x = 0.
Proof. reflexivity. Qed.
Lemma cnt_cons : forall y l x, cnt (y :: l) x = (if y =? x then 1 else 0) + cnt l x.
Proof. intros. unfold cnt. simpl. destruct (Nat.eq_dec y x), (Nat.eqb_spec y x); auto; congruence. Qed.
Lemma cnt_app : forall l1 l2 x, cnt (l1 ++ l2) x = cnt l1 x + cnt l2 x.
Proof. induction l1; intros; cbn [app]; auto. rewrite !cnt_cons, IHl1. lia. Qed.
Arguments cnt : simpl never.
Lemma NoDup_cnt : forall l, NoDup l <-> forall x, cnt l x <= 1.
Proof. intros. apply NoDup_count_occ. Qed.
Lemma In_cnt : forall x l, In x l <-> 1 <= cnt l x.
Proof. intros. unfold cnt. rewrite (count_occ_In Nat.eq_dec). lia. Qed.
Lemma cnt_perm : forall l l', Permutation l l' -> forall x, cnt l x = cnt l' x.
Proof. intros l l' H x. apply Permutation_count_occ. exact H. Qed.
Lemma cnt_concat_app : forall L1 L2 x, cnt (concat (L1 ++ L2)) x = cnt (concat L1) x + cnt (concat L2) x.
Proof. intros. now rewrite concat_app, cnt_app. Qed.

Ltac cnt_norm := repeat (rewrite ?NoDup_cnt, ?In_cnt, ?concat_app, ?cnt_app, ?cnt_cons, ?cnt_nil in *; cbn [concat app] in *).
Ltac cnt_ifs := repeat match goal with
  | |- context [if ?a =? ?b then _ else _] => destruct (Nat.eqb_spec a b); subst
  | H : context [if ?a =? ?b then _ else _] |- _ => destruct (Nat.eqb_spec a b); subst
  end.
(** [nodup H x]: a contradiction or a bound from the fact that [x] occurs at most once in the list of [H]. *)
Ltac cnt_goal := repeat (rewrite ?concat_app, ?cnt_app, ?cnt_cons, ?cnt_nil, ?Nat.eqb_refl; cbn [concat app]).
Ltac cnt_solve := cnt_goal; repeat match goal with |- context [if ?a =? ?b then _ else _] => destruct (Nat.eqb_spec a b) end; intros; first [lia|congruence].
Tactic Notation "nodup" hyp(H) constr(x) :=
  let K := fresh in pose proof H as K; rewrite NoDup_cnt in K; specialize (K x);
  repeat match goal with I : In x ?l |- _ => apply In_cnt in I end; try apply In_cnt;
  repeat match goal with I : context [cnt _ x] |- _ => revert I end;
  first [solve [clear; cnt_solve]|cnt_solve].

Section Paths.
Context {A V : Type}.
Implicit Types ns : list (list_node V).

Definition path ns (l : list nat) : Prop := linked (fun x y => nxt ns x = Some y /\ prv ns y = Some x) l.
Definition fwd ns (l : list nat) : Prop := linked (fun x y => nxt ns x = Some y) l.

Lemma linked_and : forall R1 R2 l, linked (fun x y => R1 x y /\ R2 x y) l <-> linked R1 l /\ linked R2 l.
Proof. induction l as [|x [|y l] IH]; [simpl; tauto|simpl; tauto|]. change (linked ?R (x :: y :: l)) with (R x y /\ linked R (y :: l)). cbv beta. rewrite IH. tauto. Qed.

Lemma chain_path : forall ns s ids, chain ns s ids <-> NoDup (s :: ids) /\ (forall x, In x (s :: ids) -> x < length ns) /\ path ns (s :: ids ++ [s]).
Proof. intros. unfold chain, path. rewrite linked_and. tauto. Qed.

Lemma path_fwd : forall ns l, path ns l -> fwd ns l.
Proof. intros ns l H. apply linked_and in H. apply H. Qed.

Lemma last_in : forall (l : list nat) d, l <> [] -> In (last l d) l.
Proof. intros l d H. rewrite (app_removelast_last d H) at 2. apply in_or_app. right. now left. Qed.

Lemma linked_pair_in : forall (l l1 : list nat) x y l2, l = l1 ++ x :: y :: l2 -> In x (removelast l) /\ In y (tl l).
Proof.
  intros l l1 x y l2 ->. split.
  - change (x :: y :: l2) with ([x] ++ y :: l2). rewrite app_assoc, removelast_app by discriminate. apply in_or_app. left. apply in_or_app. right. now left.
  - destruct l1; simpl; auto. apply in_or_app. right. right. now left.
Qed.

Lemma path_frame : forall ns ns' l, path ns l -> (forall x, In x (removelast l) -> nxt ns' x = nxt ns x) -> (forall y, In y (tl l) -> prv ns' y = prv ns y) -> path ns' l.
Proof.
  intros ns ns' l H H1 H2. eapply linked_mono; [exact H|]. intros l1 x y l2 E [E1 E2]. apply linked_pair_in in E as [Hx Hy].
  rewrite H1, H2; auto.
Qed.
Lemma fwd_frame : forall ns ns' l, fwd ns l -> (forall x, In x (removelast l) -> nxt ns' x = nxt ns x) -> fwd ns' l.
Proof. intros ns ns' l H H1. eapply linked_mono; [exact H|]. intros l1 x y l2 E E1. apply linked_pair_in in E as [Hx Hy]. cbv beta in *. rewrite H1; auto. Qed.

Lemma linked_join : forall (R : nat -> nat -> Prop) l1 a b l2, linked R (l1 ++ [a]) -> R a b -> linked R (b :: l2) -> linked R (l1 ++ a :: b :: l2).
Proof. intros R l1 a b l2 H1 H2 H3. apply linked_app. split; auto. split; auto. Qed.
Lemma linked_split : forall (R : nat -> nat -> Prop) l1 l2, linked R (l1 ++ l2) -> linked R l1 /\ linked R l2.
Proof.
  intros R l1 l2 H. destruct l2 as [|b l2]. { rewrite app_nil_r in H. simpl. auto. }
  destruct l1 as [|a l1] using rev_ind. { simpl. auto. } rewrite <- app_assoc in H. simpl in H. apply linked_app in H as [H1 H2]. split; auto. apply H2.
Qed.

(** A list is cut around a position. *)
Lemma cut_before : forall s (l : list nat), s :: l = removelast (s :: l) ++ [lst_or s l].
Proof. intros s l. rewrite (app_removelast_last s) at 1 by discriminate. f_equal. f_equal. unfold lst_or. destruct l; reflexivity. Qed.
Lemma cut_after : forall s (l : list nat), l ++ [s] = fst_or s l :: tl (l ++ [s]).
Proof. intros s l. destruct l; reflexivity. Qed.

Lemma path_prev : forall ns s l1 l2, path ns (s :: l1 ++ l2 ++ [s]) -> prv ns (fst_or s l2) = Some (lst_or s l1).
Proof.
  intros ns s l1 l2 H. rewrite cut_after in H. change (s :: l1 ++ ?x) with ((s :: l1) ++ x) in H. rewrite cut_before, <- app_assoc in H. apply linked_at in H. apply H.
Qed.
Lemma fwd_nx : forall ns s l1 x l2 e, fwd ns (s :: l1 ++ x :: l2 ++ [e]) -> nxt ns x = Some (fst_or e l2).
Proof. intros ns s l1 x l2 e H. rewrite cut_after in H. change (s :: l1 ++ ?x) with ((s :: l1) ++ x) in H. apply linked_at in H. apply H. Qed.
Lemma fwd_nx0 : forall ns x l2 e, fwd ns (x :: l2 ++ [e]) -> nxt ns x = Some (fst_or e l2).
Proof. intros ns x l2 e H. rewrite cut_after in H. apply H. Qed.

Lemma path_splice : forall ns ns' l1 a b l2 r x y, path ns (l1 ++ [a]) -> path ns (b :: l2) -> path ns r -> r = x :: tl r -> r = removelast r ++ [y] ->
  (forall j, nxt ns' j = if j =? y then Some b else if j =? a then Some x else nxt ns j) ->
  (forall j, prv ns' j = if j =? b then Some y else if j =? x then Some a else prv ns j) ->
  NoDup (l1 ++ a :: r ++ removelast (b :: l2)) -> NoDup (tl (l1 ++ [a]) ++ r ++ b :: l2) -> path ns' (l1 ++ a :: r ++ b :: l2).
Proof.
  intros ns ns' l1 a b l2 r x y H1 H2 H3 Ex Ey HN HP ND1 ND2.
  assert (K1 : path ns' (l1 ++ [a])).
  { eapply path_frame; [exact H1| |].
    - rewrite removelast_last. intros j Hj. rewrite HN. rewrite Ey in ND1. destruct (Nat.eqb_spec j y) as [->|]; [nodup ND1 y|]. destruct (Nat.eqb_spec j a) as [->|]; [nodup ND1 a|]. auto.
    - intros j Hj. rewrite HP. rewrite Ex in ND2. destruct (Nat.eqb_spec j b) as [->|]; [nodup ND2 b|]. destruct (Nat.eqb_spec j x) as [->|]; [nodup ND2 x|]. auto. }
  assert (K2 : path ns' (b :: l2)).
  { eapply path_frame; [exact H2| |].
    - intros j Hj. rewrite HN. rewrite Ey in ND1. destruct (Nat.eqb_spec j y) as [->|]; [nodup ND1 y|]. destruct (Nat.eqb_spec j a) as [->|]; [nodup ND1 a|]. auto.
    - simpl tl. intros j Hj. rewrite HP. rewrite Ex in ND2. destruct (Nat.eqb_spec j b) as [->|]; [nodup ND2 b|]. destruct (Nat.eqb_spec j x) as [->|]; [nodup ND2 x|]. auto. }
  assert (K3 : path ns' r).
  { eapply path_frame; [exact H3| |].
    - intros j Hj. rewrite HN. rewrite Ey in ND1. destruct (Nat.eqb_spec j y) as [->|]; [nodup ND1 y|]. destruct (Nat.eqb_spec j a) as [->|]; [nodup ND1 a|]. auto.
    - intros j Hj. rewrite HP. rewrite Ex in ND2. destruct (Nat.eqb_spec j b) as [->|]; [nodup ND2 b|]. destruct (Nat.eqb_spec j x) as [->|]; [nodup ND2 x|]. auto. }
  assert (K4 : path ns' (r ++ b :: l2)).
  { rewrite Ey, <- app_assoc. simpl. apply linked_join; auto. { rewrite <- Ey. exact K3. }
    rewrite HN, HP, !Nat.eqb_refl. auto. }
  rewrite Ex in K4 |- *. simpl app in K4 |- *. apply linked_join; auto. split.
  - rewrite HN. destruct (Nat.eqb_spec a y) as [->|]; [rewrite Ey in ND1; nodup ND1 y|]. now rewrite Nat.eqb_refl.
  - rewrite HP. destruct (Nat.eqb_spec x b) as [->|]; [rewrite Ex in ND2; nodup ND2 b|]. now rewrite Nat.eqb_refl.
Qed.

(** The same with the links to the next nodes only. *)
Lemma fwd_splice : forall ns ns' l1 a b l2 r x y, fwd ns (l1 ++ [a]) -> fwd ns (b :: l2) -> fwd ns r -> r = x :: tl r -> r = removelast r ++ [y] ->
  (forall j, nxt ns' j = if j =? y then Some b else if j =? a then Some x else nxt ns j) ->
  NoDup (l1 ++ a :: r ++ removelast (b :: l2)) -> fwd ns' (l1 ++ a :: r ++ b :: l2).
Proof.
  intros ns ns' l1 a b l2 r x y H1 H2 H3 Ex Ey HN ND1.
  assert (K1 : fwd ns' (l1 ++ [a])).
  { eapply fwd_frame; [exact H1|]. rewrite removelast_last. intros j Hj. rewrite HN. rewrite Ey in ND1. destruct (Nat.eqb_spec j y) as [->|]; [nodup ND1 y|]. destruct (Nat.eqb_spec j a) as [->|]; [nodup ND1 a|]. auto. }
  assert (K2 : fwd ns' (b :: l2)).
  { eapply fwd_frame; [exact H2|]. intros j Hj. rewrite HN. rewrite Ey in ND1. destruct (Nat.eqb_spec j y) as [->|]; [nodup ND1 y|]. destruct (Nat.eqb_spec j a) as [->|]; [nodup ND1 a|]. auto. }
  assert (K3 : fwd ns' r).
  { eapply fwd_frame; [exact H3|]. intros j Hj. rewrite HN. rewrite Ey in ND1. destruct (Nat.eqb_spec j y) as [->|]; [nodup ND1 y|]. destruct (Nat.eqb_spec j a) as [->|]; [nodup ND1 a|]. auto. }
  assert (K4 : fwd ns' (r ++ b :: l2)).
  { rewrite Ey, <- app_assoc. simpl. apply linked_join; auto. { rewrite <- Ey. exact K3. } rewrite HN, !Nat.eqb_refl. auto. }
  rewrite Ex in K4 |- *. simpl app in K4 |- *. apply linked_join; auto.
  rewrite HN. destruct (Nat.eqb_spec a y) as [->|]; [rewrite Ey in ND1; nodup ND1 y|]. now rewrite Nat.eqb_refl.
Qed.
End Paths.
