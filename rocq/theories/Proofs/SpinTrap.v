(** spinsort reads past the end of the collections whose halves are swapped. *)
From Coq Require Import List Arith Lia Permutation Bool.
From Verif Require Import Spec.Order Lang.Mem Spec.Sorts Spec.Verge Spec.Spin Proofs.Wp Proofs.OrderLib Model.Rotate Model.Indirect Proofs.Indirect Proofs.Search Proofs.Regions
  Proofs.BufMerge Model.Insertion Model.Select Proofs.Select Model.Merge Model.Spin Proofs.SpinMerge Proofs.SpinHalf Proofs.SpinInsert Proofs.SpinRange Proofs.Spin.
Import ListNotations.
Local Arguments nth_error : simpl never.
Local Arguments upd : simpl never.
Local Arguments Nat.leb : simpl never.
Local Arguments Nat.ltb : simpl never.
Local Arguments Nat.eqb : simpl never.
Local Arguments Nat.div : simpl never.
Local Arguments Nat.sub : simpl never.

Section Trap.
Context {A T : Type} (comp : T -> T -> bool) (proj : A -> T).
Local Notation lt := (by_proj comp proj).
Implicit Types (m : mem A).

Lemma ub_bind : forall X Y (c : M A X) (k : X -> M A Y) m, wp c (fun x m' => k x m' = UB) m -> bind c k m = UB.
Proof. intros X Y c k m H. unfold wp in H. unfold bind. destruct (c m); tauto. Qed.
Lemma ub_bind_l : forall X Y (c : M A X) (k : X -> M A Y) m, c m = UB -> bind c k m = UB.
Proof. intros X Y c k m H. unfold bind. now rewrite H. Qed.

Lemma loop_ub : forall S R (body : S -> M A (S + R)) (I : S -> mem A -> Prop) (mu : S -> nat),
  (forall s m, I s m -> body s m = UB \/ wp (body s) (fun r m' => match r with inl s' => I s' m' /\ mu s' < mu s | inr _ => False end) m) ->
  forall fuel s m, I s m -> mu s < fuel -> loop fuel body s m = UB.
Proof.
  intros S R body I mu HB. induction fuel as [|n IH]; intros s m HI HM; [lia|]. cbn [loop].
  destruct (HB s m HI) as [H|H]. { now apply ub_bind_l. }
  apply ub_bind. unfold wp in *. destruct (body s m) as [[s'|x] m'| |]; try tauto. destruct H. apply IH; auto. lia.
Qed.

Lemma merge_half_ub : forall x l1 l2 m B f, let n1 := length (x :: l1) in let n2 := length l2 in n1 = S n2 -> n1 + n2 < 1024 ->
  seg m B (x :: l1) -> seg m (f + n1) l2 -> lives m f n1 -> apart B n1 f (n1 + n2) -> (forall y, In y l2 -> lt y x = true) ->
  merge_half comp proj B (B + n1) (f + n1) (f + n1 + n2) f m = UB.
Proof.
  intros x l1 l2 m B f n1 n2 HN HS S1 S2 LF HA HLT. unfold merge_half. apply ub_bind, wp_assert. { apply Nat.eqb_eq. lia. }
  destruct (Nat.leb_spec 1024 (B + n1 - B + (f + n1 + n2 - (f + n1)))); [lia|].
  unfold half_inplace_merge. apply ub_bind_l. unfold half_merge_loop_1. replace (B + n1 - B) with n1 by lia.
  assert (LF' : lives m f (n1 + n2)). { apply lives_app; auto. unfold n2. now apply seg_lives. }
  eapply loop_ub with
    (I := fun '(k, f1, f2, r) m1 => exists j, j <= n2 /\ k = n1 - j /\ f1 = B /\ f2 = f + n1 + j /\ r = f + j /\
       seg m1 B (x :: l1) /\ seg m1 (f + n1 + j) (skipn j l2) /\ lives m1 f (n1 + n2))
    (mu := fun '(k, _, _, _) => k).
  - intros [[[k f1] f2] r] m1 (j & Hj & -> & -> & -> & -> & T1 & T2 & T3).
    destruct (Nat.eqb_spec (n1 - j) 0); [lia|]. destruct (Nat.eqb_spec B (B + n1)); [lia|].
    destruct (Nat.eqb_spec (f + n1 + j) (f + n1 + n2)) as [E|E]; [now left|right].
    destruct (nth_some _ l2 j) as (y & Hy); [fold n2; lia|].
    assert (ES : skipn j l2 = y :: skipn (S j) l2).
    { clear - Hy. revert j Hy. induction l2 as [|z l IH]; intros [|j] Hy; try discriminate; simpl. { now injection Hy as ->. } now apply IH. }
    rewrite ES in T2. apply seg_cons in T2 as [Hg T2]. assert (Hx := T1). apply seg_cons in Hx as [Hx _]. cbn [it_deref it_next].
    apply wp_bind. eapply wp_get; [exact Hg|]. apply wp_bind. eapply wp_get; [exact Hx|].
    assert (HC : comp (proj y) (proj x) = true) by (apply HLT; eapply nth_error_In; eauto). rewrite HC.
    apply wp_bind. eapply wp_move_one; [|exact Hg|eapply lives_at; [exact T3|lia]|]; [lia|]. intros m2 Hr HLV HO. apply wp_ret. split; [|lia].
    exists (S j). cj; try lia.
    + eapply seg_only; [exact HO| |exact T1]. fold n1. unfold within, apart in *. lia.
    + replace (f + n1 + S j) with (S (f + n1 + j)) by lia. eapply seg_only; [exact HO| |exact T2]. unfold within. lia.
    + eapply lives_change; [exact T3|apply HO|auto].
  - exists 0. cj; auto; try lia. cbn [skipn]. now rewrite Nat.add_0_r.
  - lia.
Qed.

Hypothesis HC : strict_weak_order comp.
Let HW : strict_weak_order lt := swo_by_proj _ _ comp proj HC.

Lemma nlevel_even : forall n, 145 <= n <= 287 \/ 577 <= n <= 1023 -> level_odd (Nat.log2 ((n + 36 - 1) / 36 - 1)) = false.
Proof.
  intros n HN. set (k := (n + 36 - 1) / 36) in *.
  assert (HK : 36 * k <= n + 35 < 36 * k + 36).
  { unfold k. pose proof (Nat.div_mod (n + 36 - 1) 36 ltac:(lia)). pose proof (Nat.mod_upper_bound (n + 36 - 1) 36 ltac:(lia)). lia. }
  clearbody k.
  assert (HL : forall a j, 2 ^ a <= j < 2 ^ S a -> Nat.log2 j = a) by (intros; apply Nat.log2_unique; lia).
  destruct HN. { rewrite (HL 2) by (simpl; lia). reflexivity. } { rewrite (HL 4) by (simpl; lia). reflexivity. }
Qed.

Lemma spin_trap : forall pre xs post, swapped_halves lt xs -> spin_sorter comp proj (length pre) (length pre + length xs) (pre ++ map Val xs ++ post) = UB.
Proof.
  intros pre xs post (HO & HR & HT). unfold spin_sorter, spinsort. set (f := length pre). set (n := length xs) in *. set (m := pre ++ map Val xs ++ post).
  replace (f + n - f) with n by lia.
  assert (HS : seg m f xs) by (apply seg_intro; auto).
  destruct (Nat.leb_spec n (36 * 2)) as [H|H]; [lia|].
  set (n1 := (n + 1) / 2) in *. set (n2 := n - n1).
  assert (HN : n1 + n2 = n /\ n1 = S n2).
  { apply Nat.odd_spec in HO as (q & HO). unfold n1, n2. pose proof (Nat.div_mod (n + 1) 2 ltac:(lia)). pose proof (Nat.mod_upper_bound (n + 1) 2 ltac:(lia)). lia. }
  assert (HLm : length m = f + n + length post) by (unfold m, f, n; rewrite !app_length, map_length; lia).
  apply ub_bind, wp_alloc. set (m0 := m ++ repeat Raw n1).
  assert (HL0 : length m0 = length m + n1) by (unfold m0; now rewrite app_length, repeat_length).
  assert (HS0 : seg m0 f xs). { destruct HS as [HB HS]. split; [lia|]. intros i x Hx. unfold m0. rewrite nth_error_app1; auto. apply nth_lt in Hx. fold n in HB, Hx. lia. }
  assert (HR0 : raws (length m) n1 m0). { intros t Ht. unfold m0. rewrite nth_error_app2 by lia. replace (length m + t - length m) with t by lia. now apply nth_error_repeat. }
  set (B := length m) in *.
  assert (HLV : 0 < Nat.log2 ((n + 36 - 1) / 36 - 1)). { apply Nat.log2_pos. assert (3 <= (n + 36 - 1) / 36) by (apply Nat.div_le_lower_bound; lia). lia. }
  pose proof (nlevel_even n HR) as EO.
  set (lv := Nat.log2 _) in *. clearbody lv.
  apply ub_bind, wp_assert. { destruct (Nat.eqb_spec lv 0); [lia|auto]. }
  apply ub_bind_l. rewrite EO.
  rewrite <- (firstn_skipn n1 xs) in HS0. cbn [fst snd].
  assert (E1 : length (firstn n1 xs) = n1) by (rewrite firstn_length; fold n; lia). assert (E2 : length (skipn n1 xs) = n2) by (rewrite skipn_length; fold n; lia).
  set (x1 := firstn n1 xs) in *. set (x2 := skipn n1 xs) in *. clearbody x1 x2.
  apply seg_app in HS0 as [S1 S2]. rewrite E1 in S2.
  apply ub_bind. eapply uninitialized_move_region; [exact S1|lia|now rewrite E1|lia|]. rewrite E1. intros m1 S3 L3 O3.
  apply ub_bind. eapply (range_sort_region comp proj HC) with (xs := x1); rewrite ?E1; try lia. { unfold apart. lia. } { rewrite EO. split; [exact S3|exact L3]. }
  intros m2 S4 L4 O4. assert (S2' : seg m2 (f + n1) x2). { eapply seg_only; [exact O4|rewrite E2; unfold within; lia|]. eapply seg_only; [exact O3|rewrite E2; unfold within; lia|exact S2]. }
  apply ub_bind. eapply (range_sort_region comp proj HC) with (xs := x2); rewrite ?E2; try lia. { unfold apart. lia. } { rewrite EO. split; [exact S2'|]. eapply lives_sub; [exact L4|lia|lia]. }
  intros m3 S5 L5 O5.
  assert (S4' : seg m3 B (ssort lt x1)). { eapply seg_only; [exact O5| |exact S4]. rewrite ssort_length, E1. unfold within; lia. }
  assert (E1' : length (ssort lt x1) = n1) by now rewrite ssort_length. assert (E2' : length (ssort lt x2) = n2) by now rewrite ssort_length.
  assert (HLT : forall u v, In u (ssort lt x1) -> In v (ssort lt x2) -> lt v u = true).
  { intros u v Hu Hv. apply HT; (eapply Permutation_in; [symmetry; apply (ssort_perm lt)|]); auto. }
  destruct (ssort lt x1) as [|x l1] eqn:EX; [simpl in E1'; lia|].
  rewrite <- E1'. replace (f + n) with (f + length (x :: l1) + length (ssort lt x2)) by lia. apply merge_half_ub; rewrite ?E1', ?E2'; auto; try lia.
  - eapply lives_keep; [exact L4|exact O5|exact L5|unfold within; lia].
  - unfold apart. lia.
  - intros y Hy. apply HLT; auto. now left.
Qed.
End Trap.
