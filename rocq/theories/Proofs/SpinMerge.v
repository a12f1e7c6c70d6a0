(** The merges of spinsort. *)
From Coq Require Import List Arith Lia Permutation Bool.
From Verif Require Import Spec.Order Lang.Mem Spec.Sorts Proofs.Wp Proofs.OrderLib Model.Rotate Proofs.Indirect Proofs.Search Proofs.HalfMerge Proofs.Regions
  Model.Insertion Proofs.Insertion Model.Select Proofs.Select Model.Merge Model.Spin.
Import ListNotations.
Local Arguments nth_error : simpl never.
Local Arguments upd : simpl never.
Local Arguments Nat.leb : simpl never.
Local Arguments Nat.ltb : simpl never.

Definition apart (f n g k : nat) : Prop := f + n <= g \/ g + k <= f.
Ltac win := unfold within, apart in *; intros; simpl length in *; lia.

Section Merges.
Context {A T : Type} (comp : T -> T -> bool) (proj : A -> T).
Local Notation lt := (by_proj comp proj).
Implicit Types (m : mem A).

Lemma move_range_lives : forall xs m f l r (Q : nat -> mem A -> Prop), seg m f xs -> l = f + length xs -> lives m r (length xs) -> apart f (length xs) r (length xs) ->
  (forall m', seg m' r xs -> lives m' f (length xs) -> lives m' r (length xs) -> only (fun i => within f (length xs) i \/ within r (length xs) i) m m' -> Q (r + length xs) m') ->
  wp (move_range f l r) Q m.
Proof. intros xs m f l r Q HS HE HL HA HQ. eapply move_range_region; eauto. intros m' S1 L1 O1. apply HQ; auto. now apply seg_lives. Qed.

Lemma merge_move_region : forall l1 l2 m a ea b eb r (Q : nat -> mem A -> Prop), seg m a l1 -> seg m b l2 -> lives m r (length l1 + length l2) ->
  ea = a + length l1 -> eb = b + length l2 ->
  apart a (length l1) b (length l2) -> apart a (length l1) r (length l1 + length l2) -> apart b (length l2) r (length l1 + length l2) ->
  (forall m', seg m' r (merge lt l1 l2) -> lives m' a (length l1) -> lives m' b (length l2) ->
     only (fun i => within a (length l1) i \/ within b (length l2) i \/ within r (length l1 + length l2) i) m m' -> Q (r + (length l1 + length l2)) m') ->
  wp (merge_move comp proj a ea b eb r) Q m.
Proof.
  intros l1 l2 m a ea b eb r Q S1 S2 LR -> -> AAB AAR ABR HQ. unfold merge_move.
  destruct (Nat.eqb_spec a (a + length l1)) as [E|E1].
  { destruct l1; [|simpl in E; lia]. simpl length in *. rewrite Nat.add_0_l in *. apply move_range_region with (xs := l2); auto.
    intros m' H1 H2 H3. rewrite <- (Nat.add_0_l (length l2)) at 1. apply HQ.
    - rewrite merge_nil_l. auto.
    - split; [|intros; lia]. rewrite (proj1 H3). apply seg_len in S1. auto.
    - auto.
    - eapply only_weaken; [exact H3|]. win. }
  destruct (Nat.eqb_spec b (b + length l2)) as [E|E2].
  { destruct l2; [|simpl in E; lia]. simpl length in *. rewrite Nat.add_0_r in *. apply move_range_region with (xs := l1); auto.
    intros m' H1 H2 H3. apply HQ.
    - rewrite merge_nil_r. auto.
    - auto.
    - split; [|intros; lia]. rewrite (proj1 H3). apply seg_len in S2. simpl in S2. lia.
    - eapply only_weaken; [exact H3|]. win. }
  set (P := fun i => within a (length l1) i \/ within b (length l2) i \/ within r (length l1 + length l2) i).
  apply wp_loop' with
    (I := fun '(f1, f2, r1) m1 => exists p1 s1 p2 s2 out, l1 = p1 ++ s1 /\ l2 = p2 ++ s2 /\ s1 <> [] /\ s2 <> [] /\ f1 = a + length p1 /\ f2 = b + length p2 /\
       length out = length p1 + length p2 /\ r1 = r + length out /\ out ++ merge lt s1 s2 = merge lt l1 l2 /\
       seg m1 (a + length p1) s1 /\ seg m1 (b + length p2) s2 /\ seg m1 r out /\
       lives m1 a (length l1) /\ lives m1 b (length l2) /\ lives m1 r (length l1 + length l2) /\ only P m m1)
    (mu := fun '(f1, f2, _) => a + length l1 - f1 + (b + length l2 - f2)).
  - exists [], l1, [], l2, []. simpl. rewrite !Nat.add_0_r. cj; auto; try (intros ->; simpl in *; lia).
    { apply seg_nil. destruct LR. lia. } { now apply seg_lives. } { now apply seg_lives. } { apply only_refl. }
  - lia.
  - intros [[f1 f2] r1] m1 (p1 & s1 & p2 & s2 & out & -> & -> & N1 & N2 & -> & -> & HO & -> & HM & G1 & G2 & G3 & K1 & K2 & K3 & HF).
    rewrite !app_length in *.
    destruct s1 as [|x1 s1]; [congruence|]. destruct s2 as [|x2 s2]; [congruence|]. clear N1 N2.
    destruct (Nat.eqb_spec (a + length p1) (a + (length p1 + length (x1 :: s1)))) as [E|_]; [simpl in E; lia|].
    destruct (Nat.eqb_spec (b + length p2) (b + (length p2 + length (x2 :: s2)))) as [E|_]; [simpl in E; lia|].
    apply seg_cons in G1 as [X1 G1]. apply seg_cons in G2 as [X2 G2].
    apply wp_bind. eapply wp_get; [exact X2|]. apply wp_bind. eapply wp_get; [exact X1|].
    rewrite merge_cons in HM. change (by_proj comp proj x2 x1) with (comp (proj x2) (proj x1)) in HM.
    destruct (comp (proj x2) (proj x1)) eqn:EC.
    + apply wp_bind. eapply wp_move_one; [win|exact X2|eapply lives_at; [exact K3|win]|].
      intros m2 HV HLV HO2. pose proof (proj1 HO2) as HLEN.
      assert (GO : seg m2 r (out ++ [x2])).
      { apply seg_app. split; [eapply seg_only; [exact HO2| |exact G3]; win|]. apply seg_cons. split; auto. apply seg_nil. destruct K3. simpl in *. lia. }
      assert (K1' : lives m2 a (length p1 + length (x1 :: s1))) by (eapply lives_change; eauto).
      assert (K2' : lives m2 b (length p2 + length (x2 :: s2))) by (eapply lives_change; eauto).
      assert (K3' : lives m2 r (length p1 + length (x1 :: s1) + (length p2 + length (x2 :: s2)))) by (eapply lives_change; eauto).
      assert (G1' : seg m2 (a + length p1) (x1 :: s1)).
      { eapply seg_only; [exact HO2| |]. 2:{ apply seg_cons. split; auto. } win. }
      assert (G2' : seg m2 (S (b + length p2)) s2) by (eapply seg_only; [exact HO2| |exact G2]; win).
      assert (HF' : only P m m2). { eapply only_trans; [exact HF|]. eapply only_weaken; [exact HO2|]. unfold P. rewrite !app_length. win. }
      destruct (Nat.eqb_spec (S (b + length p2)) (b + (length p2 + length (x2 :: s2)))) as [E|E].
      * destruct s2; [|simpl in E; lia]. apply wp_bind. apply move_range_region with (xs := x1 :: s1); auto; try win.
        { eapply lives_sub; [exact K3'|win|win]. }
        intros m3 H1 H2 H3. apply wp_ret.
        match goal with |- Q ?n _ => replace n with (r + (length p1 + length (x1 :: s1) + (length p2 + length [x2]))) by (simpl; lia) end.
        apply HQ.
        -- rewrite <- HM. rewrite merge_nil_r. change (out ++ x2 :: x1 :: s1) with (out ++ [x2] ++ x1 :: s1). rewrite app_assoc. apply seg_app. split.
           ++ eapply seg_only; [exact H3| |exact GO]. rewrite app_length. win.
           ++ rewrite app_length. simpl length. replace (r + (length out + 1)) with (S (r + length out)) by lia. exact H1.
        -- apply lives_app; [|exact H2]. eapply lives_only; [exact H3| |eapply lives_sub; [exact K1'|win|win]]. win.
        -- eapply lives_only; [exact H3| |exact K2']. win.
        -- eapply only_trans; [eapply only_weaken; [exact HF'|]|eapply only_weaken; [exact H3|]]; unfold P; rewrite ?app_length; win.
      * apply wp_ret. split; [|simpl in *; lia]. exists p1, (x1 :: s1), (p2 ++ [x2]), s2, (out ++ [x2]). rewrite !app_length. cj; auto.
        { now rewrite <- app_assoc. } { discriminate. } { intros ->. simpl in E. lia. } { simpl; lia. } { simpl; lia. } { simpl; lia. }
        { rewrite <- HM. now rewrite <- app_assoc. }
        { replace (b + (length p2 + length [x2])) with (S (b + length p2)) by (simpl; lia). exact G2'. }
    + apply wp_bind. eapply wp_move_one; [win|exact X1|eapply lives_at; [exact K3|win]|].
      intros m2 HV HLV HO2. pose proof (proj1 HO2) as HLEN.
      assert (GO : seg m2 r (out ++ [x1])).
      { apply seg_app. split; [eapply seg_only; [exact HO2| |exact G3]; win|]. apply seg_cons. split; auto. apply seg_nil. destruct K3. simpl in *. lia. }
      assert (K1' : lives m2 a (length p1 + length (x1 :: s1))) by (eapply lives_change; eauto).
      assert (K2' : lives m2 b (length p2 + length (x2 :: s2))) by (eapply lives_change; eauto).
      assert (K3' : lives m2 r (length p1 + length (x1 :: s1) + (length p2 + length (x2 :: s2)))) by (eapply lives_change; eauto).
      assert (G2' : seg m2 (b + length p2) (x2 :: s2)).
      { eapply seg_only; [exact HO2| |]. 2:{ apply seg_cons. split; auto. } win. }
      assert (G1' : seg m2 (S (a + length p1)) s1) by (eapply seg_only; [exact HO2| |exact G1]; win).
      assert (HF' : only P m m2). { eapply only_trans; [exact HF|]. eapply only_weaken; [exact HO2|]. unfold P. rewrite !app_length. win. }
      destruct (Nat.eqb_spec (S (a + length p1)) (a + (length p1 + length (x1 :: s1)))) as [E|E].
      * destruct s1; [|simpl in E; lia]. apply wp_bind. apply move_range_region with (xs := x2 :: s2); auto; try win.
        { eapply lives_sub; [exact K3'|win|win]. }
        intros m3 H1 H2 H3. apply wp_ret.
        match goal with |- Q ?n _ => replace n with (r + (length p1 + length [x1] + (length p2 + length (x2 :: s2)))) by (simpl; lia) end.
        apply HQ.
        -- rewrite <- HM. rewrite merge_nil_l. change (out ++ x1 :: x2 :: s2) with (out ++ [x1] ++ x2 :: s2). rewrite app_assoc. apply seg_app. split.
           ++ eapply seg_only; [exact H3| |exact GO]. rewrite app_length. win.
           ++ rewrite app_length. simpl length. replace (r + (length out + 1)) with (S (r + length out)) by lia. exact H1.
        -- eapply lives_only; [exact H3| |exact K1']. win.
        -- apply lives_app; [|exact H2]. eapply lives_only; [exact H3| |eapply lives_sub; [exact K2'|win|win]]. win.
        -- eapply only_trans; [eapply only_weaken; [exact HF'|]|eapply only_weaken; [exact H3|]]; unfold P; rewrite ?app_length; win.
      * apply wp_ret. split; [|simpl in *; lia]. exists (p1 ++ [x1]), s1, p2, (x2 :: s2), (out ++ [x1]). rewrite !app_length. cj; auto.
        { now rewrite <- app_assoc. } { intros ->. simpl in E. lia. } { discriminate. } { simpl; lia. } { simpl; lia. } { simpl; lia. }
        { rewrite <- HM. now rewrite <- app_assoc. }
        { replace (a + (length p1 + length [x1])) with (S (a + length p1)) by (simpl; lia). exact G1'. }
Qed.

Hypothesis HC : strict_weak_order comp.
Let HW : strict_weak_order lt := swo_by_proj _ _ comp proj HC.

(** The short cuts: the first range entirely before the second, or the second entirely before the first. *)
Lemma ssort_in_order : forall l1 x l2 y, sorted lt (l1 ++ [x]) -> sorted lt (y :: l2) -> lt y x = false ->
  ssort lt ((l1 ++ [x]) ++ y :: l2) = (l1 ++ [x]) ++ y :: l2.
Proof.
  intros l1 x l2 y S1 S2 E. apply ssort_id; auto. apply sorted_app. cj; auto.
  intros u v Hu Hv. apply (le_trans lt HW) with x. 
  - apply in_app_or in Hu as [Hu|[<-|[]]]; [|apply le_refl; auto]. apply sorted_app in S1 as (_ & _ & S1). apply S1; auto. now left.
  - apply (le_trans lt HW) with y; auto. destruct Hv as [<-|Hv]; [apply le_refl; auto|]. apply sorted_cons in S2 as [S2 _]. auto.
Qed.
Lemma all_before : forall l1 x l2 y, sorted lt (x :: l1) -> sorted lt (l2 ++ [y]) -> lt y x = true -> forall u v, In u (x :: l1) -> In v (l2 ++ [y]) -> lt v u = true.
Proof.
  intros l1 x l2 y S1 S2 E u v Hu Hv. apply (le_lt_trans lt HW) with y.
  - apply in_app_or in Hv as [Hv|[<-|[]]]; [|apply le_refl; auto]. apply sorted_app in S2 as (_ & _ & S2). apply S2; auto. now left.
  - apply (lt_le_trans lt HW) with x; auto. destruct Hu as [<-|Hu]; [apply le_refl; auto|]. apply sorted_cons in S1 as [S1 _]. auto.
Qed.
Lemma ssort_swapped : forall l1 x l2 y, sorted lt (x :: l1) -> sorted lt (l2 ++ [y]) -> lt y x = true ->
  ssort lt ((x :: l1) ++ l2 ++ [y]) = (l2 ++ [y]) ++ x :: l1.
Proof.
  intros l1 x l2 y S1 S2 E. pose proof (all_before _ _ _ _ S1 S2 E) as HB. symmetry. apply stable_is_ssort; auto.
  - apply sorted_app. cj; auto. intros u v Hu Hv. apply lt_le; auto.
  - apply same_swap; auto.
Qed.
End Merges.
