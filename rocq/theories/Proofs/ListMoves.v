(** The elements of linked lists are moved to a collection. *)
From Coq Require Import List Arith Lia Permutation Bool.
From Verif Require Import Spec.Order Lang.Mem Proofs.Wp Proofs.OrderLib Model.Indirect Proofs.Indirect Model.Select Proofs.Select Model.FixedList Model.Mel
  Proofs.FixedList Proofs.ListPath Proofs.ListMerge Proofs.Encroach Proofs.ListRounds.
Import ListNotations.
Local Arguments nth_error : simpl never.
Local Arguments upd : simpl never.
Local Arguments Nat.mul : simpl never.

Definition filled {A} (c : cell A) : Prop := c <> Raw.

Section Moves.
Context {A T : Type} (comp : T -> T -> bool) (proj : A -> T).
Variable v : nat -> A.
Local Notation ltn := (fun x y : nat => comp (proj (v x)) (proj (v y))).
Implicit Types (p : node_pool A).

(** The values of the nodes [l] have been moved away from [p]. *)
Definition emptied p p' (l : list nat) : Prop :=
  length (nodes p') = length (nodes p) /\ capacity p' = capacity p /\ first_free p' = first_free p /\
  (forall j, nxt (nodes p') j = nxt (nodes p) j /\ prv (nodes p') j = prv (nodes p) j) /\
  (forall j, In j l -> vl (nodes p') j = Moved) /\ (forall j, ~ In j l -> vl (nodes p') j = vl (nodes p) j).

Lemma emptied_nil : forall p, emptied p p [].
Proof. intros p. repeat split; auto. intros j []. Qed.

Lemma emptied_trans : forall p1 p2 p3 l1 l2 l, emptied p1 p2 l1 -> emptied p2 p3 l2 -> (forall j, In j l <-> In j l1 \/ In j l2) -> emptied p1 p3 l.
Proof.
  intros p1 p2 p3 l1 l2 l (A1 & A2 & A3 & A4 & A5 & A6) (B1 & B2 & B3 & B4 & B5 & B6) HL. unfold emptied. cj; try congruence.
  - intros j. destruct (B4 j) as [-> ->]. auto.
  - intros j Hj. destruct (in_dec Nat.eq_dec j l2) as [H|H]; auto. rewrite B6 by auto. apply A5. apply HL in Hj. tauto.
  - intros j Hj. rewrite B6, A6; auto; intros H; apply Hj, HL; auto.
Qed.

Lemma node_take_wp : forall p x (Q : A * node_pool A -> mem A -> Prop) m, vl (nodes p) x = Val (v x) -> x < length (nodes p) ->
  (forall p', emptied p p' [x] -> Q (v x, p') m) -> wp (node_take p x) Q m.
Proof.
  intros p x Q m HV Hx HQ. unfold node_take. apply wp_bind. eapply wp_list_deref; eauto. apply wp_bind. apply wp_set_value; auto. intros ns L1 V1 X1 P1. apply wp_ret. apply HQ.
  unfold emptied. cbn [nodes capacity first_free with_nodes]. cj; auto.
  - intros j [->|[]]. rewrite V1, Nat.eqb_refl. auto.
  - intros j Hj. rewrite V1. destruct (Nat.eqb_spec j x) as [->|]; auto. destruct Hj. now left.
Qed.

Lemma list_move_wp : forall p l e first result pre cs post (Q : node_pool A * nat -> mem A -> Prop) m, fwd (nodes p) (l ++ [e]) -> NoDup (e :: l) -> first = fst_or e l ->
  (forall x, In x l -> x < length (nodes p)) -> (forall x, In x l -> vl (nodes p) x = Val (v x)) ->
  m = pre ++ cs ++ post -> length cs = length l -> Forall filled cs -> result = length pre ->
  (forall p', emptied p p' l -> Q (p', length pre + length l) (pre ++ map Val (map v l) ++ post)) -> wp (list_move p first e result) Q m.
Proof.
  intros p l e first result pre cs post Q m HF ND Ef HB HV Em HL HC Er HQ. unfold list_move.
  assert (length l <= length (nodes p)) as HLN by (apply (nodup_bound comp proj); auto; inversion ND; auto).
  apply wp_loop_k with (k := length l) (I := fun k '(first, p', result) m' => exists l1 l2 cs', l = l1 ++ l2 /\ k = length l2 /\ first = fst_or e l2 /\ emptied p p' l1 /\
    m' = pre ++ map Val (map v l1) ++ cs' ++ post /\ length cs' = length l2 /\ Forall filled cs' /\ result = length pre + length l1).
  - exists [], l, cs. cj; auto using emptied_nil. simpl. lia.
  - lia.
  - clear HL HC. subst m. clear cs. intros k [[f p1] r] m1 (l1 & l2 & cs & El & -> & -> & EM & -> & HL & HC & ->).
    destruct l2 as [|x l2].
    + cbn [fst_or hd]. rewrite Nat.eqb_refl. apply wp_ret. destruct cs; [|discriminate]. rewrite app_nil_r in El. subst l1. apply HQ; auto.
    + cbn [fst_or hd]. assert (In x l) as Hx by (rewrite El; apply in_or_app; right; now left).
      destruct (Nat.eqb_spec x e) as [->|_]. { inversion ND; tauto. }
      assert (EM' := EM). destruct EM' as (M1 & _ & _ & M4 & _ & M6).
      assert (~ In x l1) as Hxl. { intros H. assert (NoDup l) as ND' by (inversion ND; auto). rewrite El in ND'. nodup ND' x. }
      apply wp_bind. apply node_take_wp. { rewrite M6; auto. } { rewrite M1; auto. } intros p2 EM2.
      destruct cs as [|c cs]; [discriminate|]. apply Forall_cons_iff in HC as [HC1 HC2].
      apply wp_bind. reshape ((pre ++ map Val (map v l1)) ++ c :: (cs ++ post)). apply wp_put_at; [lens; lia|exact HC1|].
      assert (EM2' := EM2). destruct EM2' as (N1 & _ & _ & N4 & _).
      apply wp_bind. eapply wp_list_next. { rewrite (proj1 (N4 x)), (proj1 (M4 x)). rewrite El in HF.
        rewrite <- app_assoc in HF. simpl in HF. apply linked_app in HF as [_ HF]. apply (fwd_nx0 _ _ _ _ HF). }
      apply wp_ret. exists (length l2). split; [simpl; lia|]. exists (l1 ++ [x]), l2, cs. cj; auto.
      * rewrite <- app_assoc. exact El.
      * eapply emptied_trans; eauto. intros j. rewrite in_app_iff. tauto.
      * rewrite !map_app. simpl. solve_app.
      * rewrite app_length. simpl. lia.
Qed.

Lemma list_merge_move_wp : forall p l1 e1 l2 e2 first1 first2 result pre cs post (Q : node_pool A -> mem A -> Prop) m,
  fwd (nodes p) (l1 ++ [e1]) -> fwd (nodes p) (l2 ++ [e2]) -> NoDup (e1 :: e2 :: l1 ++ l2) -> first1 = fst_or e1 l1 -> first2 = fst_or e2 l2 ->
  (forall x, In x (l1 ++ l2) -> x < length (nodes p)) -> (forall x, In x (l1 ++ l2) -> vl (nodes p) x = Val (v x)) ->
  m = pre ++ cs ++ post -> length cs = length (l1 ++ l2) -> Forall filled cs -> result = length pre ->
  (forall p', emptied p p' (l1 ++ l2) -> Q p' (pre ++ map Val (map v (merge ltn l1 l2)) ++ post)) -> wp (list_merge_move comp proj p first1 e1 first2 e2 result) Q m.
Proof.
  intros p l1 e1 l2 e2 first1 first2 result pre cs post Q m HF1 HF2 ND Ef1 Ef2 HB HV Em HL HC Er HQ. unfold list_merge_move.
  assert (ND1 : NoDup (e1 :: l1)) by (apply NoDup_cnt; intros j; nodup ND j). assert (ND2 : NoDup (e2 :: l2)) by (apply NoDup_cnt; intros j; nodup ND j).
  destruct l1 as [|x1 l1].
  { subst first1. cbn [fst_or hd]. rewrite Nat.eqb_refl. apply wp_bind. eapply list_move_wp; eauto. intros p' EM. apply wp_ret. rewrite merge_nil_l in HQ. apply HQ. exact EM. }
  destruct (Nat.eqb_spec first1 e1) as [E|N1]. { rewrite Ef1 in E. cbn [fst_or hd] in E. exfalso. clear - E ND1. rewrite E in ND1. nodup ND1 e1. }
  destruct l2 as [|x2 l2].
  { subst first2. cbn [fst_or hd]. rewrite Nat.eqb_refl. apply wp_bind. rewrite app_nil_r in *. eapply list_move_wp with (l := x1 :: l1); eauto. }
  destruct (Nat.eqb_spec first2 e2) as [E|N2]. { rewrite Ef2 in E. cbn [fst_or hd] in E. exfalso. clear - E ND2. rewrite E in ND2. nodup ND2 e2. }
  assert (length ((x1 :: l1) ++ x2 :: l2) <= length (nodes p)) as HLN. { apply (nodup_bound comp proj); auto. apply NoDup_cnt; intros j; nodup ND j. }
  apply wp_loop_k with (k := length ((x1 :: l1) ++ x2 :: l2)) (I := fun k '(f1, f2, p', r) m' => exists d1 y1 r1 d2 y2 r2 out cs', x1 :: l1 = d1 ++ y1 :: r1 /\ x2 :: l2 = d2 ++ y2 :: r2 /\
     k = length ((y1 :: r1) ++ y2 :: r2) /\ f1 = y1 /\ f2 = y2 /\ emptied p p' (d1 ++ d2) /\ merge ltn (x1 :: l1) (x2 :: l2) = out ++ merge ltn (y1 :: r1) (y2 :: r2) /\
     m' = pre ++ map Val (map v out) ++ cs' ++ post /\ length cs' = k /\ Forall filled cs' /\ r = length pre + length out).
  - exists [], x1, l1, [], x2, l2, [], cs. cj; auto using emptied_nil. simpl. lia.
  - lia.
  - subst m. clear HL HC cs. intros k [[[f1 f2] p1] r] m1 (d1 & y1 & r1 & d2 & y2 & r2 & out & cs & E1 & E2 & -> & -> & -> & EM & HM & -> & HL & HC & ->).
    rewrite E1 in HF1. rewrite E2 in HF2. rewrite <- app_assoc in HF1, HF2. simpl in HF1, HF2. apply linked_app in HF1 as [_ HF1]. apply linked_app in HF2 as [_ HF2].
    assert (EM' := EM). destruct EM' as (M1 & _ & _ & M4 & _ & M6).
    assert (ND' := ND). rewrite E1, E2 in ND'.
    assert (HIN1 : forall j, In j (y1 :: r1) -> In j ((x1 :: l1) ++ x2 :: l2)). { intros j Hj. rewrite E1, E2. rewrite !in_app_iff. tauto. }
    assert (HIN2 : forall j, In j (y2 :: r2) -> In j ((x1 :: l1) ++ x2 :: l2)). { intros j Hj. rewrite E1, E2. rewrite !in_app_iff. tauto. }
    assert (HVV : forall j, In j ((y1 :: r1) ++ y2 :: r2) -> vl (nodes p1) j = Val (v j)).
    { intros j Hj. rewrite M6. - apply HV. apply in_app_or in Hj as [Hj|Hj]; auto. - intros Hi. clear - ND' Hj Hi. nodup ND' j. }
    assert (HY1 : In y1 ((y1 :: r1) ++ y2 :: r2)) by now left. assert (HY2 : In y2 ((y1 :: r1) ++ y2 :: r2)) by (apply in_or_app; right; now left).
    apply wp_bind. apply (node_less_wp comp proj v); [apply HVV; auto|apply HVV; auto|].
    assert (HFF1 : fwd (nodes p1) (y1 :: r1 ++ [e1])). { eapply fwd_frame; [exact HF1|]. intros j _. apply M4. }
    assert (HFF2 : fwd (nodes p1) (y2 :: r2 ++ [e2])). { eapply fwd_frame; [exact HF2|]. intros j _. apply M4. }
    destruct cs as [|c cs]; [discriminate|]. apply Forall_cons_iff in HC as [HC1 HC2].
    rewrite (merge_cons ltn y1 r1 y2 r2) in HM.
    destruct (comp (proj (v y2)) (proj (v y1))) eqn:EC.
    + apply wp_bind. apply node_take_wp. { apply HVV; auto. } { rewrite M1. apply HB. apply HIN2. now left. } intros p2 EM2.
      assert (EM2' := EM2). destruct EM2' as (K1 & _ & _ & K4 & _ & K6).
      apply wp_bind. reshape ((pre ++ map Val (map v out)) ++ c :: (cs ++ post)). apply wp_put_at; [lens; lia|exact HC1|].
      apply wp_bind. eapply wp_list_next. { rewrite (proj1 (K4 y2)). apply (fwd_nx0 _ _ _ _ HFF2). }
      destruct r2 as [|z2 r2].
      * cbn [fst_or hd]. rewrite Nat.eqb_refl. apply wp_bind. eapply list_move_wp with (l := y1 :: r1) (pre := pre ++ map Val (map v (out ++ [y2]))) (cs := cs) (post := post).
        -- eapply fwd_frame; [exact HFF1|]. intros j _. apply K4.
        -- apply NoDup_cnt. intros j. clear - ND'. nodup ND' j.
        -- reflexivity.
        -- intros j Hj. rewrite K1, M1. apply HB. auto.
        -- intros j Hj. rewrite K6. ++ apply HVV. apply in_or_app. auto. ++ intros [<-|[]]. clear - ND' Hj. nodup ND' y2.
        -- rewrite !map_app. simpl. solve_app.
        -- simpl in HL. rewrite app_length in HL. simpl in *. lia.
        -- exact HC2.
        -- lens; simpl; lia.
        -- intros p3 EM3. apply wp_ret. match goal with |- Q _ ?mm => replace mm with (pre ++ map Val (map v (merge ltn (x1 :: l1) (x2 :: l2))) ++ post) end.
           ++ apply HQ. eapply emptied_trans with (l1 := (d1 ++ d2) ++ [y2]); [eapply emptied_trans; [exact EM|exact EM2|]|exact EM3|].
              ** intros j. rewrite !in_app_iff. tauto.
              ** intros j. rewrite E1, E2, !in_app_iff. simpl. tauto.
           ++ rewrite HM, merge_nil_r, !map_app. simpl. solve_app.
      * cbn [fst_or hd]. destruct (Nat.eqb_spec z2 e2) as [->|_]. { clear - ND'. exfalso. nodup ND' e2. }
        apply wp_ret. exists (length ((y1 :: r1) ++ z2 :: r2)). split. { rewrite !app_length. simpl. lia. }
        exists d1, y1, r1, (d2 ++ [y2]), z2, r2, (out ++ [y2]), cs. cj; auto.
        -- rewrite <- app_assoc. exact E2.
        -- eapply emptied_trans; [exact EM|exact EM2|]. intros j. rewrite !in_app_iff. simpl. tauto.
        -- rewrite HM. rewrite <- app_assoc. reflexivity.
        -- rewrite !map_app. simpl. solve_app.
        -- simpl in HL. rewrite app_length in *. simpl in *. lia.
        -- lens; simpl; lia.
    + apply wp_bind. apply node_take_wp. { apply HVV; auto. } { rewrite M1. apply HB. apply HIN1. now left. } intros p2 EM2.
      assert (EM2' := EM2). destruct EM2' as (K1 & _ & _ & K4 & _ & K6).
      apply wp_bind. reshape ((pre ++ map Val (map v out)) ++ c :: (cs ++ post)). apply wp_put_at; [lens; lia|exact HC1|].
      apply wp_bind. eapply wp_list_next. { rewrite (proj1 (K4 y1)). apply (fwd_nx0 _ _ _ _ HFF1). }
      destruct r1 as [|z1 r1].
      * cbn [fst_or hd]. rewrite Nat.eqb_refl. apply wp_bind. eapply list_move_wp with (l := y2 :: r2) (pre := pre ++ map Val (map v (out ++ [y1]))) (cs := cs) (post := post).
        -- eapply fwd_frame; [exact HFF2|]. intros j _. apply K4.
        -- apply NoDup_cnt. intros j. clear - ND'. nodup ND' j.
        -- reflexivity.
        -- intros j Hj. rewrite K1, M1. apply HB. auto.
        -- intros j Hj. rewrite K6. ++ apply HVV. apply in_or_app. auto. ++ intros [<-|[]]. clear - ND' Hj. nodup ND' y1.
        -- rewrite !map_app. simpl. solve_app.
        -- simpl in HL. simpl in *. lia.
        -- exact HC2.
        -- lens; simpl; lia.
        -- intros p3 EM3. apply wp_ret. match goal with |- Q _ ?mm => replace mm with (pre ++ map Val (map v (merge ltn (x1 :: l1) (x2 :: l2))) ++ post) end.
           ++ apply HQ. eapply emptied_trans with (l1 := (d1 ++ d2) ++ [y1]); [eapply emptied_trans; [exact EM|exact EM2|]|exact EM3|].
              ** intros j. rewrite !in_app_iff. tauto.
              ** intros j. rewrite E1, E2, !in_app_iff. simpl. tauto.
           ++ rewrite HM, merge_nil_l, !map_app. simpl. solve_app.
      * cbn [fst_or hd]. destruct (Nat.eqb_spec z1 e1) as [->|_]. { clear - ND'. exfalso. nodup ND' e1. }
        apply wp_ret. exists (length ((z1 :: r1) ++ y2 :: r2)). split. { rewrite !app_length. simpl. lia. }
        exists (d1 ++ [y1]), z1, r1, d2, y2, r2, (out ++ [y1]), cs. cj; auto.
        -- rewrite <- app_assoc. exact E1.
        -- eapply emptied_trans; [exact EM|exact EM2|]. intros j. rewrite !in_app_iff. simpl. tauto.
        -- rewrite HM. rewrite <- app_assoc. reflexivity.
        -- rewrite !map_app. simpl. solve_app.
        -- lens; simpl; lia.
Qed.
End Moves.
