(** A sufficient test for the absence of the pattern of Spec/Verge.v, for the examples. *)
From Coq Require Import List Arith Lia Bool.
From Verif Require Import Spec.Order Spec.Verge Lang.Mem Proofs.OrderLib.
Import ListNotations.

Section Check.
Context {A : Type} (lt : A -> A -> bool).

(** Adjacent elements only. *)
Fixpoint upwards (l : list A) : bool :=
  match l with
  | x :: (y :: _) as t => negb (lt y x) && upwards t
  | _ => true
  end.
Fixpoint downwards (l : list A) : bool :=
  match l with
  | x :: (y :: _) as t => negb (lt x y) && downwards t
  | _ => true
  end.
Definition turns (n : nat) (l : list A) (k : nat) : bool :=
  match nth_error l (k - 1), nth_error l k, nth_error l (S k) with
  | Some z, Some x, Some y =>
      let b := firstn n (skipn (k - n) l) in
      let c := firstn n (skipn (S k) l) in
      (if lt x z then upwards b else downwards b) && (if lt y x then upwards c else downwards c)
  | _, _, _ => false
  end.

Lemma sorted_tail : forall (R : A -> A -> bool) x l, sorted R (x :: l) -> sorted R l.
Proof. intros R x l H i j a b Hij Hi Hj. apply (H (S i) (S j)); auto. lia. Qed.
Lemma sorted_upwards : forall l, sorted lt l -> upwards l = true.
Proof.
  induction l as [|x [|y l] IH]; intros H; auto. change (negb (lt y x) && upwards (y :: l) = true). rewrite IH by (eapply sorted_tail; eauto).
  rewrite (H 0 1 x y); auto.
Qed.
Lemma sorted_downwards : forall l, sorted (fun x y => lt y x) l -> downwards l = true.
Proof.
  induction l as [|x [|y l] IH]; intros H; auto. change (negb (lt x y) && downwards (y :: l) = true). rewrite IH by (eapply sorted_tail; eauto).
  rewrite (H 0 1 x y); auto.
Qed.
Lemma sorted_part : forall (R : A -> A -> bool) a b c, sorted R (a ++ b ++ c) -> sorted R b.
Proof.
  intros R a b c H i j x y Hij Hi Hj. apply (H (length a + i) (length a + j)); [lia| |].
  - rewrite nth_error_app2 by lia. replace (length a + i - length a) with i by lia. rewrite nth_error_app1; auto. apply nth_error_Some. congruence.
  - rewrite nth_error_app2 by lia. replace (length a + j - length a) with j by lia. rewrite nth_error_app1; auto. apply nth_error_Some. congruence.
Qed.

Lemma slice : forall n k (p q t l : list A), l = p ++ q ++ t -> length p = k -> length q = n -> firstn n (skipn k l) = q.
Proof.
  intros n k p q t l -> <- <-. rewrite skipn_app, skipn_all, Nat.sub_diag. simpl. rewrite firstn_app, firstn_all, Nat.sub_diag. simpl. apply app_nil_r.
Qed.

Lemma not_isolated : forall n l, 0 < n -> existsb (turns n l) (seq n (length l - n)) = false -> ~ has_isolated_element lt n l.
Proof.
  intros n l Hn HE (a & b & x & c & d & -> & Hb & Hc & (b' & z & -> & HB) & (y & c' & -> & HC)).
  set (k := length a + length (b' ++ [z])).
  assert (In k (seq n (length (a ++ (b' ++ [z]) ++ x :: (y :: c') ++ d) - n))) as HI.
  { apply in_seq. unfold k. rewrite !app_length in *. simpl in *. rewrite !app_length in *. lia. }
  assert (turns n (a ++ (b' ++ [z]) ++ x :: (y :: c') ++ d) k = false) as HT.
  { destruct (turns n _ k) eqn:E; auto. rewrite <- HE. symmetry. apply existsb_exists. eauto. }
  unfold turns in HT.
  assert (E1 : nth_error (a ++ (b' ++ [z]) ++ x :: (y :: c') ++ d) (k - 1) = Some z).
  { unfold k. rewrite app_length. simpl. rewrite nth_error_app2 by lia. rewrite nth_error_app1 by (rewrite app_length; simpl; lia).
    rewrite nth_error_app2 by lia. now replace (length a + (length b' + 1) - 1 - length a - length b') with 0 by lia. }
  assert (E2 : nth_error (a ++ (b' ++ [z]) ++ x :: (y :: c') ++ d) k = Some x).
  { unfold k. rewrite !nth_error_app2 by lia. now replace (length a + length (b' ++ [z]) - length a - length (b' ++ [z])) with 0 by lia. }
  assert (E3 : nth_error (a ++ (b' ++ [z]) ++ x :: (y :: c') ++ d) (S k) = Some y).
  { unfold k. rewrite !nth_error_app2 by lia. now replace (S (length a + length (b' ++ [z])) - length a - length (b' ++ [z])) with 1 by lia. }
  rewrite E1, E2, E3 in HT.
  assert (F1 : exists p, b' ++ [z] = p ++ firstn n (skipn (k - n) (a ++ (b' ++ [z]) ++ x :: (y :: c') ++ d)) ++ []).
  { set (w := b' ++ [z]) in *. exists (firstn (length w - n) w). rewrite app_nil_r.
    rewrite (slice n (k - n) (a ++ firstn (length w - n) w) (skipn (length w - n) w) (x :: (y :: c') ++ d) _).
    - symmetry. apply firstn_skipn. - rewrite <- app_assoc, (app_assoc _ (skipn _ _)), firstn_skipn. auto.
    - rewrite app_length, firstn_length. unfold k. lia. - rewrite skipn_length. lia. }
  assert (F2 : exists p, y :: c' = [] ++ firstn n (skipn (S k) (a ++ (b' ++ [z]) ++ x :: (y :: c') ++ d)) ++ p).
  { set (w := y :: c') in *. exists (skipn n w). rewrite (slice n (S k) (a ++ (b' ++ [z]) ++ [x]) (firstn n w) (skipn n w ++ d) _).
    - simpl. symmetry. apply firstn_skipn. - rewrite (app_assoc (firstn n w)), firstn_skipn, <- !app_assoc. auto.
    - unfold k. rewrite !app_length. simpl. lia. - apply firstn_length_le. auto. }
  destruct F1 as (p & F1), F2 as (q & F2). apply andb_false_iff in HT as [HT|HT].
  - assert (if lt x z then upwards (firstn n (skipn (k - n) (a ++ (b' ++ [z]) ++ x :: (y :: c') ++ d))) = true
            else downwards (firstn n (skipn (k - n) (a ++ (b' ++ [z]) ++ x :: (y :: c') ++ d))) = true) as H.
    { destruct HB as [[H ->]|(H & _ & ->)]; rewrite F1 in H; apply sorted_part in H; [apply sorted_upwards|apply sorted_downwards]; auto. }
    destruct (lt x z); congruence.
  - assert (if lt y x then upwards (firstn n (skipn (S k) (a ++ (b' ++ [z]) ++ x :: (y :: c') ++ d))) = true
            else downwards (firstn n (skipn (S k) (a ++ (b' ++ [z]) ++ x :: (y :: c') ++ d))) = true) as H.
    { destruct HC as [[H ->]|(H & _ & ->)]; rewrite F2 in H; apply sorted_part in H; [apply sorted_upwards|apply sorted_downwards]; auto. }
    destruct (lt y x); congruence.
Qed.

(** The program leaves [l] unsorted. *)
Definition not_sorted_by (prog : range_prog A) (l : list A) : bool :=
  match prog 0 (length l) (map Val l) with
  | Ok _ m => negb (upwards (flat_map (fun c => match c with Val a => [a] | _ => [] end) m))
  | _ => true
  end.
Lemma not_sorted_by_sound : forall prog l, not_sorted_by prog l = true ->
  ~ (forall pre xs post, exists ys, prog (length pre) (length pre + length xs) (pre ++ map Val xs ++ post) = Ok tt (pre ++ map Val ys ++ post) /\ sorted lt ys).
Proof.
  intros prog l H HS. destruct (HS [] l []) as (ys & E & HR). simpl in E. rewrite !app_nil_r in E. unfold not_sorted_by in H. rewrite E in H.
  assert (forall l : list A, flat_map (fun c => match c with Val a => [a] | _ => [] end) (map Val l) = l) as HV.
  { induction l0 as [|a l0 IH]; simpl; congruence. }
  rewrite HV, sorted_upwards in H by auto. discriminate.
Qed.
End Check.
