(** quick_merge_sort. *)
From Coq Require Import List Arith Lia Permutation Bool.
From Verif Require Import Spec.Order Lang.Mem Spec.Sorts Spec.Select Proofs.Wp Proofs.OrderLib Model.Basic Proofs.Basic
  Model.Rotate Proofs.Rotate Model.Pdq Model.Quick Model.Select Proofs.IndexLib Proofs.NetLib Proofs.PdqPart Proofs.Pdq Proofs.Quick Proofs.Select.
Import ListNotations.

Section QuickMerge.
Context {A T : Type} (comp : T -> T -> bool) (proj : A -> T).
Notation lt := (by_proj comp proj).
Hypothesis HW : strict_weak_order lt.
Implicit Types pre mid post : mem A.

Lemma wp_swap_at_r : forall l1 l2 l3 a b i j (Q : unit -> mem A -> Prop),
  i = length l1 -> j = length l1 + S (length l2) ->
  Q tt (l1 ++ Val b :: l2 ++ Val a :: l3) ->
  wp (swap j i) Q (l1 ++ Val a :: l2 ++ Val b :: l3).
Proof.
  intros l1 l2 l3 a b i j Q Hi Hj HQ. assert (nth_error (l1 ++ Val a :: l2 ++ Val b :: l3) j = Some (Val b)) as Eb.
  { change (l1 ++ Val a :: l2 ++ Val b :: l3) with (l1 ++ (Val a :: l2) ++ Val b :: l3).
    rewrite app_assoc. apply nth_at. rewrite app_length. simpl. lia. }
  eapply wp_swap; eauto; [apply nth_at; auto|]. rewrite upd_comm by lia. rewrite upd_at by auto.
  replace (upd j (Val a) (l1 ++ Val b :: l2 ++ Val b :: l3))
    with (l1 ++ Val b :: l2 ++ Val a :: l3); auto.
  change (l1 ++ Val b :: l2 ++ Val b :: l3) with (l1 ++ (Val b :: l2) ++ Val b :: l3).
  rewrite app_assoc, upd_at. rewrite <- app_assoc. reflexivity. rewrite app_length. simpl. lia.
Qed.

Lemma swap_ranges_r_wp : forall xs ys pre mid post f1 l1 f2 (Q : nat -> mem A -> Prop),
  length xs = length ys -> f2 = length pre -> f1 = f2 + length xs + length mid -> l1 = f1 + length ys ->
  Q (f2 + length xs) (pre ++ map Val ys ++ mid ++ map Val xs ++ post) ->
  wp (swap_ranges f1 l1 f2) Q (pre ++ map Val xs ++ mid ++ map Val ys ++ post).
Proof.
  intros xs ys pre mid post f1 l1 f2 Q HL -> -> -> HQ. unfold swap_ranges.
  apply wp_loop' with
    (I := fun '(g1, g2) m => exists x1 x2 y1 y2, xs = x1 ++ x2 /\ ys = y1 ++ y2 /\
       length x1 = length y1 /\
       m = pre ++ map Val (y1 ++ x2) ++ mid ++ map Val (x1 ++ y2) ++ post /\
       g2 = length pre + length x1 /\ g1 = length pre + length xs + length mid + length x1)
    (mu := fun '(g1, g2) => length pre + length xs + length mid + length ys - g1).
  - exists [], xs, [], ys. cj; auto; lensr.
  - lia.
  - intros [g1 g2] m (x1 & x2 & y1 & y2 & -> & -> & E & -> & -> & ->).
    rewrite !app_length in *.
    destruct x2 as [|x x2]; destruct y2 as [|y y2]; try (lensr; fail).
    + replace (_ =? _) with true by (symmetry; apply Nat.eqb_eq; lensr). apply wp_ret. rewrite !app_nil_r in *.
      simpl in *. rewrite Nat.add_0_r in *. auto.
    + simpl length in *. replace (_ =? _) with false by (symmetry; apply Nat.eqb_neq; lia).
      apply wp_bind.
      reshape ((pre ++ map Val y1) ++ Val x :: (map Val x2 ++ mid ++ map Val x1) ++ Val y :: map Val y2 ++ post).
      apply wp_swap_at_r; try (lensr; fail).
      apply wp_ret. split; [|lia].
      exists (x1 ++ [x]), x2, (y1 ++ [y]), y2.
      cj; try (lensr; fail); try solve_app.
Qed.

(** The memory during a merge: [O] is merged, [R] and [L] remain; [J1] and [J2] are elements of the buffer. *)
Definition mshape pre (O J1 R : list A) mid (J2 L : list A) post : mem A :=
  pre ++ map Val (O ++ J1 ++ R) ++ mid ++ map Val (J2 ++ L) ++ post.

(** Invariant on the lists, relative to the lists at the start of the merge. *)
Definition minv (L0 R0 B0 O J1 R J2 L : list A) : Prop :=
  length J1 = length L /\ Permutation (L0 ++ R0) (O ++ L ++ R) /\ Permutation B0 (J1 ++ J2) /\
  sorted lt (O ++ L) /\ sorted lt (O ++ R).

Lemma mstep_R : forall L0 R0 B0 O j J1 r R J2 x L, lt r x = true ->
  minv L0 R0 B0 O (j :: J1) (r :: R) J2 (x :: L) -> minv L0 R0 B0 (O ++ [r]) (J1 ++ [j]) R J2 (x :: L).
Proof.
  intros L0 R0 B0 O j J1 r R J2 x L Hrx (H1 & H2 & H3 & H4 & H5). unfold minv. cj.
  - lensr.
  - etransitivity; [exact H2|]. rewrite <- app_assoc. apply Permutation_app_head. simpl.
    apply Permutation_sym. apply (Permutation_middle (x :: L) R r).
  - etransitivity; [exact H3|]. simpl. rewrite <- app_assoc. simpl. apply Permutation_middle.
  - apply sorted_app in H4 as (S1 & S2 & S3), H5 as (S4 & S5 & S6). apply sorted_app. cj; auto.
    + apply sorted_app. cj; auto; [apply sorted_one|]. intros a b Ha [<-|[]]. apply S6; simpl; auto.
    + intros a b Ha Hb. apply in_app_or in Ha as [Ha|[<-|[]]]; auto.
      apply (le_trans lt HW) with x; [now apply (lt_asym lt HW)|].
      destruct Hb as [<-|Hb]; [apply (lt_irrefl lt HW)|]. apply sorted_cons in S2 as [S2 _]. auto.
  - rewrite <- app_assoc. auto.
Qed.

Lemma mstep_L : forall L0 R0 B0 O j J1 r R J2 x L, lt r x = false ->
  minv L0 R0 B0 O (j :: J1) (r :: R) J2 (x :: L) -> minv L0 R0 B0 (O ++ [x]) J1 (r :: R) (J2 ++ [j]) L.
Proof.
  intros L0 R0 B0 O j J1 r R J2 x L Hrx (H1 & H2 & H3 & H4 & H5). unfold minv. cj.
  - lensr.
  - etransitivity; [exact H2|]. rewrite <- app_assoc. reflexivity.
  - etransitivity; [exact H3|]. simpl. rewrite app_assoc. apply Permutation_cons_append.
  - rewrite <- app_assoc. auto.
  - apply sorted_app in H4 as (S1 & S2 & S3), H5 as (S4 & S5 & S6). apply sorted_app. cj; auto.
    + apply sorted_app. cj; auto; [apply sorted_one|]. intros a b Ha [<-|[]]. apply S3; simpl; auto.
    + intros a b Ha Hb. apply in_app_or in Ha as [Ha|[<-|[]]]; auto.
      apply (le_trans lt HW) with r; auto.
      destruct Hb as [<-|Hb]; [apply (lt_irrefl lt HW)|]. apply sorted_cons in S5 as [S5 _]. auto.
Qed.

(** One step of either loop. *)
Lemma merge_step_wp : forall X (kr kl : X) pre mid post O j J1 r R J2 x L f1 f2 res (Q : X -> mem A -> Prop),
  length J1 = length L ->
  res = length pre + length O -> f2 = res + S (length J1) -> f1 = f2 + S (length R) + length mid + length J2 ->
  (lt r x = true -> Q kr (mshape pre (O ++ [r]) (J1 ++ [j]) R mid J2 (x :: L) post)) ->
  (lt r x = false -> Q kl (mshape pre (O ++ [x]) J1 (r :: R) mid (J2 ++ [j]) L post)) ->
  wp (let* c := less_at comp proj f2 f1 in
      if (c : bool) then swap res f2 ;; ret kr else swap res f1 ;; ret kl) Q (mshape pre O (j :: J1) (r :: R) mid J2 (x :: L) post).
Proof.
  intros X kr kl pre mid post O j J1 r R J2 x L f1 f2 res Q HJ -> -> -> HR HL. unfold mshape in *.
  apply wp_bind. apply (wp_less_at comp proj _ _ r x).
  - replace (pre ++ map Val (O ++ (j :: J1) ++ r :: R) ++ mid ++ map Val (J2 ++ x :: L) ++ post)
      with ((pre ++ map Val O ++ Val j :: map Val J1) ++ Val r :: (map Val R ++ mid ++ map Val (J2 ++ x :: L) ++ post)) by solve_app.
    apply nth_at. lensr.
  - replace (pre ++ map Val (O ++ (j :: J1) ++ r :: R) ++ mid ++ map Val (J2 ++ x :: L) ++ post)
      with ((pre ++ map Val (O ++ (j :: J1) ++ r :: R) ++ mid ++ map Val J2) ++ Val x :: map Val L ++ post) by solve_app.
    apply nth_at. lensr.
  - destruct (lt r x) eqn:E.
    + apply wp_bind. reshape ((pre ++ map Val O) ++ Val j :: map Val J1 ++ Val r :: (map Val R ++ mid ++ map Val (J2 ++ x :: L) ++ post)).
      apply wp_swap_at; try (lensr; fail). apply wp_ret.
      match goal with |- Q kr ?m => replace m with (pre ++ map Val ((O ++ [r]) ++ (J1 ++ [j]) ++ R) ++ mid ++ map Val (J2 ++ x :: L) ++ post) by solve_app end.
      auto.
    + apply wp_bind. reshape ((pre ++ map Val O) ++ Val j :: (map Val J1 ++ Val r :: map Val R ++ mid ++ map Val J2) ++ Val x :: map Val L ++ post).
      apply wp_swap_at; try (lensr; fail). apply wp_ret.
      match goal with |- Q kl ?m => replace m with (pre ++ map Val ((O ++ [x]) ++ J1 ++ r :: R) ++ mid ++ map Val ((J2 ++ [j]) ++ L) ++ post) by solve_app end.
      auto.
Qed.

Lemma half_merge_wp : forall pre L0 R0 mid B0 post f1 l1 f2 l2 res,
  sorted lt L0 -> sorted lt R0 -> length B0 = length L0 -> length L0 <= length R0 ->
  res = length pre -> f2 = res + length B0 -> l2 = f2 + length R0 -> f1 = l2 + length mid -> l1 = f1 + length L0 ->
  wp (internal_half_inplace_merge comp proj f1 l1 f2 l2 res (length L0)) (fun _ m' => exists ys B,
    m' = pre ++ map Val ys ++ mid ++ map Val B ++ post /\ Permutation (L0 ++ R0) ys /\ Permutation B0 B /\ sorted lt ys)
    (pre ++ map Val (B0 ++ R0) ++ mid ++ map Val L0 ++ post).
Proof.
  intros pre L0 R0 mid B0 post f1 l1 f2 l2 res HL HR HB HLR Hres Hf2 Hl2 Hf1 Hl1. unfold internal_half_inplace_merge.
  set (st := fun '(f1', f2', res') (m : mem A) (O J1 R J2 L : list A) =>
    m = mshape pre O J1 R mid J2 L post /\ minv L0 R0 B0 O J1 R J2 L /\
    res' = res + length O /\ f2' = res' + length J1 /\ f2' + length R = l2 /\ f1' = l2 + length mid + length J2 /\ f1' + length L = l1).
  apply wp_bind.
  apply wp_mono with (Q := fun s m => exists O J1 R J2 L, st s m O J1 R J2 L).
  { apply wp_loop' with (I := fun '(g1, g2, r, k) m => exists O J1 R J2 L, st (g1, g2, r) m O J1 R J2 L /\
      k <= length L /\ k <= length R) (mu := fun '(g1, g2, r, k) => k).
    - exists [], B0, R0, [], L0. unfold st, mshape, minv. simpl. cj; auto; try lia. rewrite app_nil_r. reflexivity.
    - lia.
    - intros [[[g1 g2] r] k] m (O & J1 & R & J2 & L & (-> & HI & Hr & Hg2 & Hl2' & Hg1 & Hl1') & Hk1 & Hk2).
      destruct (Nat.eqb_spec k 0) as [->|Hk].
      { apply wp_ret. exists O, J1, R, J2, L. unfold st. cj; auto. }
      destruct L as [|x L]; [simpl in *; lia|]. destruct R as [|y R]; [simpl in *; lia|].
      pose proof HI as (HJ & _). destruct J1 as [|j J1]; [discriminate|]. simpl in HJ. injection HJ as HJ.
      apply wp_bind, wp_assert. { apply negb_true_iff, Nat.eqb_neq. lensr. }
      apply wp_bind, wp_assert. { apply negb_true_iff, Nat.eqb_neq. lensr. }
      apply merge_step_wp; auto; try (lensr; fail).
      + intros E. split; [|lia]. exists (O ++ [y]), (J1 ++ [j]), R, J2, (x :: L). unfold st. cj; auto; try (lensr; fail).
        apply mstep_R; auto.
      + intros E. split; [|lia]. exists (O ++ [x]), J1, (y :: R), (J2 ++ [j]), L. unfold st. cj; auto; try (lensr; fail).
        eapply mstep_L; eauto. }
  intros [[g1 g2] r] m (O & J1 & R & J2 & L & HS). cbv beta iota.
  apply wp_loop' with (I := fun s m => exists O J1 R J2 L, st s m O J1 R J2 L)
    (mu := fun '(g1, g2, r) => (l1 - g1) + (l2 - g2)).
  - eauto 10.
  - lia.
  - clear -HW Hres. intros [[g1 g2] r] m (O & J1 & R & J2 & L & -> & HI & Hr & Hg2 & Hl2' & Hg1 & Hl1').
    pose proof HI as (HJ & HP & HPB & S1 & S2).
    destruct (Nat.eqb_spec g1 l1) as [E1|E1].
    { assert (L = []) as -> by (destruct L; auto; lensr). assert (J1 = []) as -> by (destruct J1; auto; lensr).
      apply wp_ret. exists (O ++ R), J2. cj; auto. unfold mshape. solve_app. }
    destruct L as [|x L]; [simpl in *; lia|]. destruct J1 as [|j J1]; [discriminate|]. simpl in HJ. injection HJ as HJ.
    destruct (Nat.eqb_spec g2 l2) as [E2|E2].
    { assert (R = []) as -> by (destruct R; auto; lensr). apply wp_bind. unfold swap_ranges_inner, mshape.
      apply wp_bind, wp_assert. { apply Nat.leb_le. lia. }
      apply wp_bind, wp_assert. { apply negb_true_iff, andb_false_iff. left. apply Nat.leb_gt. lensr. }
      apply wp_bind, wp_assert. { apply negb_true_iff, andb_false_iff. left. apply Nat.ltb_ge. lensr. }
      reshape ((pre ++ map Val O) ++ map Val (j :: J1) ++ (mid ++ map Val J2) ++ map Val (x :: L) ++ post).
      apply swap_ranges_r_wp; try (lensr; fail). apply wp_ret.
      exists (O ++ (x :: L)), (J2 ++ (j :: J1)). cj; auto.
      - solve_app.
      - etransitivity; [exact HP|]. rewrite app_nil_r. reflexivity.
      - etransitivity; [exact HPB|]. apply Permutation_app_comm. }
    destruct R as [|y R]; [simpl in *; lia|].
    apply merge_step_wp; auto; try (lensr; fail).
    + intros E. split; [|lensr]. exists (O ++ [y]), (J1 ++ [j]), R, J2, (x :: L). unfold st. cj; auto; try (lensr; fail).
      apply mstep_R; auto.
    + intros E. split; [|lensr]. exists (O ++ [x]), J1, (y :: R), (J2 ++ [j]), L. unfold st. cj; auto; try (lensr; fail).
      eapply mstep_L; eauto.
Qed.

Lemma internal_mergesort_wp : forall bidi fuel pre xs mid B post f l size buffer,
  f = length pre -> size = length xs -> l = f + size -> buffer = l + length mid -> size / 2 <= length B -> size < fuel ->
  wp (internal_mergesort comp proj bidi fuel f l size buffer) (fun _ m' => exists ys B',
    m' = pre ++ map Val ys ++ mid ++ map Val B' ++ post /\ Permutation xs ys /\ Permutation B B' /\ sorted lt ys)
    (pre ++ map Val xs ++ mid ++ map Val B ++ post).
Proof.
  intros bidi fuel. induction fuel as [|fuel IH]; intros pre xs mid B post f l size buffer Hf Hs Hl Hb HB Hfu; [lia|].
  cbn [internal_mergesort]. unfold qmsort_limit. destruct (Nat.leb_spec size 32) as [Hn|Hn].
  - eapply wp_mono; [apply small_sort_wp; [lia|]|].
    + subst. apply full_init.
    + intros u m' [HP HS]. subst. apply pm_decomp in HP as (ys & -> & HP). exists ys, B. cj; auto.
      eapply sorted_range_list with (pre := pre). rewrite <- (Permutation_length HP). apply HS; auto.
  - assert (size / 2 <= size - size / 2 /\ size / 2 < size /\ 0 < size / 2) as (Hd1 & Hd2 & Hd3).
    { pose proof (Nat.div_mod size 2 ltac:(lia)). pose proof (Nat.mod_upper_bound size 2 ltac:(lia)). lia. }
    assert ((size - size / 2) / 2 <= size / 2 /\ size / 2 / 2 <= size / 2) as (Hd4 & Hd5).
    { split; apply Nat.div_le_upper_bound; lia. }
    set (h := size / 2) in *.
    rewrite <- (firstn_skipn h xs).
    assert (length (firstn h xs) = h) as H1 by (rewrite firstn_length; lia).
    assert (length (skipn h xs) = size - h) as H2 by (rewrite skipn_length; lia).
    set (X := firstn h xs) in *. set (Y := skipn h xs) in *. clearbody X Y. clearbody h.
    apply wp_bind. reshape (pre ++ map Val X ++ (map Val Y ++ mid) ++ map Val B ++ post).
    eapply wp_mono. { apply IH; auto; try lia. lensr. }
    intros u m1 (X' & B1 & -> & HP1 & HB1 & HS1). cbv beta. clear u.
    pose proof (Permutation_length HP1) as L1. pose proof (Permutation_length HB1) as L2.
    apply wp_bind. reshape ((pre ++ map Val X') ++ map Val Y ++ mid ++ map Val B1 ++ post).
    eapply wp_mono. { apply IH; auto; try lia. lensr. }
    intros u m2 (Y' & B2 & -> & HP2 & HB2 & HS2). cbv beta. clear u.
    pose proof (Permutation_length HP2) as L3. pose proof (Permutation_length HB2) as L4.
    assert (Permutation (X ++ Y) (X' ++ Y')) as HP by (apply Permutation_app; auto).
    assert (Permutation B B2) as HPB by (etransitivity; eauto).
    apply wp_bind.
    apply wp_mono with (Q := fun '(g, k) m => exists O L, m = (pre ++ map Val X') ++ map Val Y' ++ mid ++ map Val B2 ++ post /\
      X' = O ++ L /\ g = f + length O /\ k = length L /\ sorted lt (O ++ Y')).
    { assert (exists y Y'', Y' = y :: Y'') as (y & Y'' & ->) by (destruct Y'; eauto; simpl in *; lia).
      apply wp_loop' with (I := fun '(g, k) m => exists O L, m = (pre ++ map Val X') ++ map Val (y :: Y'') ++ mid ++ map Val B2 ++ post /\
        X' = O ++ L /\ g = f + length O /\ k = length L /\ sorted lt (O ++ y :: Y'')) (mu := fun '(g, k) => k).
      - exists [], X'. cj; auto; lensr.
      - lia.
      - intros [g k] m (O & L & -> & -> & -> & -> & HS). destruct (Nat.eqb_spec (f + length O) (f + h)) as [E|E].
        { apply wp_ret. exists O, L. cj; auto. }
        destruct L as [|x L]; [lensr|].
        apply wp_bind. apply (wp_less_at comp proj _ _ y x).
        + simpl. apply nth_at. lensr.
        + replace ((pre ++ map Val (O ++ x :: L)) ++ map Val (y :: Y'') ++ mid ++ map Val B2 ++ post)
            with ((pre ++ map Val O) ++ Val x :: map Val L ++ map Val (y :: Y'') ++ mid ++ map Val B2 ++ post) by solve_app.
          apply nth_at. lensr.
        + destruct (lt y x) eqn:Eyx; simpl negb; cbv iota; apply wp_ret.
          * exists O, (x :: L). cj; auto.
          * split; [|simpl; lia]. exists (O ++ [x]), L. cj; auto; try (lensr; fail). { solve_app. }
            rewrite <- app_assoc. simpl. replace (O ++ x :: L) with ((O ++ [x]) ++ L) in HS1 by solve_app.
            apply sorted_app in HS as (S1 & S2 & S3). apply sorted_app in HS1 as (S4 & _). apply sorted_app in S4 as (_ & _ & S4).
            apply sorted_app. cj; auto.
            -- apply sorted_cons. split; auto. intros b [<-|Hb']; auto.
               apply (le_trans lt HW) with y; auto. apply sorted_cons in S2 as [S2 _]. auto.
            -- intros a b Ha [<-|Hb']; auto. apply S4; simpl; auto. }
    intros [g k] m (O & L & -> & -> & -> & -> & HS). cbv beta iota.
    destruct (Nat.eqb_spec (f + length O) (f + h)) as [E|E].
    { apply wp_ret. assert (L = []) as -> by (destruct L; auto; lensr). rewrite app_nil_r in *.
      exists (O ++ Y'), B2. cj; auto. solve_app. }
    unfold internal_buffered_inplace_merge. apply wp_bind.
    assert (length L <= length B2) as HLB by lensr.
    rewrite <- (firstn_skipn (length L) B2) in HPB |- *.
    assert (length (firstn (length L) B2) = length L) as H3 by (rewrite firstn_length; lia).
    set (C := firstn (length L) B2) in *. set (D := skipn (length L) B2) in *. clearbody C D.
    unfold swap_ranges_inner.
    apply wp_bind, wp_assert. { apply Nat.leb_le. lensr. }
    apply wp_bind, wp_assert. { apply negb_true_iff, andb_false_iff. right. apply Nat.ltb_ge. lensr. }
    apply wp_bind, wp_assert. { apply negb_true_iff, andb_false_iff. right. apply Nat.leb_gt. lensr. }
    reshape ((pre ++ map Val O) ++ map Val L ++ (map Val Y' ++ mid) ++ map Val C ++ map Val D ++ post).
    apply swap_ranges_wp; try (lensr; fail).
    reshape ((pre ++ map Val O) ++ map Val (C ++ Y') ++ mid ++ map Val L ++ map Val D ++ post).
    apply sorted_app in HS1 as (S1 & S2 & S3). apply sorted_app in HS as (S4 & S5 & S6).
    eapply wp_mono. { apply half_merge_wp; auto; lensr. }
    intros u m' (ys & C' & -> & HPy & HPC & HSy). exists (O ++ ys), (C' ++ D). cj.
    + solve_app.
    + etransitivity; [exact HP|]. rewrite <- app_assoc. apply Permutation_app_head. exact HPy.
    + etransitivity; [exact HPB|]. apply Permutation_app_tail. exact HPC.
    + apply sorted_app. cj; auto. intros a b Ha Hb'.
      apply (Permutation_in _ (Permutation_sym HPy)) in Hb'. apply in_app_or in Hb' as [Hb'|Hb']; auto.
Qed.

Lemma nth_element_wp : forall cat f l k m, full f l m -> k < l - f ->
  wp (nth_element comp proj cat f l k (l - f)) (fun r m' => r = f + k /\ pm f l m m' /\ parted comp proj f r l m') m.
Proof.
  intros cat f l k m Hf Hk.
  assert (forall bidi, wp (introselect comp proj bidi f l k (l - f)) (fun r m' => r = f + k /\ pm f l m m' /\ parted comp proj f r l m') m) as HI.
  { intros bidi. unfold introselect. eapply wp_mono; [apply introselect_loop_wp; auto; lia|]. intros r m' (H1 & H2 & H3). auto. }
  destruct cat; [apply HI|apply HI|]. unfold nth_element, median_of_ninthers_select.
  destruct (Nat.eqb_spec (f + k) l); [lia|]. apply wp_bind. replace (f + k - f) with k by lia.
  eapply wp_mono; [apply (adaptive_quickselect_wp comp proj (lt_asym lt HW)); auto; try lia|]. { replace (f + (l - f)) with l by lia. auto. }
  replace (f + (l - f)) with l by lia. intros u m' (HP & z & Hz & Ez & R1 & R2). apply wp_ret. cj; auto.
  intros i j x y Hi Hj Ex Ey. apply (le_trans lt HW) with z. { apply (R1 i x); auto. }
  destruct (Nat.eq_dec j (f + k)) as [->|]. { assert (y = z) by congruence. subst. apply (lt_irrefl lt HW). }
  apply (R2 j y); auto. lia.
Qed.

Lemma quick_merge_sort_wp : forall cat pre xs post,
  wp (quick_merge_sorter comp proj cat (length pre) (length pre + length xs)) (fun _ m' => exists ys,
    m' = pre ++ map Val ys ++ post /\ Permutation xs ys /\ sorted lt ys) (pre ++ map Val xs ++ post).
Proof.
  intros cat pre xs post. unfold quick_merge_sorter, quick_merge_sort. cbv zeta.
  set (bidi := match cat with Forward => false | _ => true end). apply wp_bind.
  set (l := length pre + length xs). replace (l - length pre) with (length xs) by (unfold l; lia).
  apply wp_mono with (Q := fun g m => exists O rest, m = pre ++ map Val (O ++ rest) ++ post /\ g = length pre + length O /\
    Permutation xs (O ++ rest) /\ sorted lt O /\ (forall a b, In a O -> In b rest -> lt b a = false)).
  { apply wp_loop' with (I := fun '(g, n) m => exists O rest, m = pre ++ map Val (O ++ rest) ++ post /\ g = length pre + length O /\
      n = length rest /\ Permutation xs (O ++ rest) /\ sorted lt O /\ (forall a b, In a O -> In b rest -> lt b a = false))
      (mu := fun '(g, n) => n).
    - exists [], xs. cj; auto; try lensr. apply sorted_nil. simpl; tauto.
    - lia.
    - intros [g n] m (O & rest & -> & Hg & -> & HP & HS & HO). unfold qmsort_limit.
      pose proof (Permutation_length HP) as HL. rewrite app_length in HL.
      destruct (Nat.ltb_spec 32 (length rest)) as [Hn|Hn].
      + set (k := 2 * (length rest / 3) - 2).
        assert (0 < k < length rest /\ k / 2 <= length rest - k) as [Hk1 Hk2].
        { pose proof (Nat.div_mod (length rest) 3 ltac:(lia)). pose proof (Nat.mod_upper_bound (length rest) 3 ltac:(lia)).
          assert (length rest / 3 >= 10) by (apply Nat.div_le_lower_bound; lia).
          split; [lia|]. apply Nat.div_le_upper_bound; lia. }
        clearbody k. apply wp_bind.
        reshape ((pre ++ map Val O) ++ map Val rest ++ post).
        replace (length rest) with (l - g) by lia.
        assert (l = length (pre ++ map Val O) + length rest) as El by lensr.
        assert (g = length (pre ++ map Val O)) as Eg by lensr.
        eapply wp_mono.
        { apply nth_element_wp; [|lia]. rewrite El, Eg. apply full_init. }
        intros r m1 (-> & HPm & HPt). rewrite El, Eg in HPm. apply pm_decomp in HPm as (rest' & -> & HPr).
        rewrite <- (firstn_skipn k rest') in HPt, HPr |- *.
        pose proof (Permutation_length HPr) as HLr. rewrite app_length in HLr.
        assert (length (firstn k rest') = k) as H1.
        { rewrite firstn_skipn in HPr. apply Permutation_length in HPr. rewrite firstn_length. lia. }
        set (X := firstn k rest') in *. set (Y := skipn k rest') in *. clearbody X Y. clear rest'.
        assert (forall a b, In a X -> In b Y -> lt b a = false) as HXY.
        { intros a b Ha Hb. apply In_nth_error in Ha as (i & Hi). apply In_nth_error in Hb as (j & Hj).
          assert (i < length X) by (apply nth_error_Some; congruence). assert (j < length Y) by (apply nth_error_Some; congruence).
          apply (HPt (g + i) (g + k + j)); try lia.
          - rewrite Eg, nth_pre_map_post by lensr. rewrite nth_error_app1 by lia. rewrite Hi. reflexivity.
          - rewrite Eg, <- Nat.add_assoc, nth_pre_map_post by lensr. rewrite nth_error_app2 by lia.
            replace (k + j - length X) with j by lia. rewrite Hj. reflexivity. }
        apply wp_bind. reshape ((pre ++ map Val O) ++ map Val X ++ [] ++ map Val Y ++ post).
        eapply wp_mono. { apply (internal_mergesort_wp bidi (S k) (pre ++ map Val O) X [] Y post); auto; try lia; simpl length; lia. }
        intros u m2 (X' & Y' & -> & HPX & HPY & HSX). apply wp_ret. split; [|lia].
        pose proof (Permutation_length HPX) as LX. pose proof (Permutation_length HPY) as LY.
        exists (O ++ X'), Y'. cj.
        * solve_app.
        * destruct cat; lensr.
        * lia.
        * etransitivity; [exact HP|]. rewrite <- app_assoc. apply Permutation_app_head. etransitivity; [exact HPr|].
          apply Permutation_app; auto.
        * apply sorted_app. cj; auto. intros a b Ha Hb. apply HO; auto.
          apply (Permutation_in _ (Permutation_sym HPr)). apply in_or_app. left. apply (Permutation_in _ (Permutation_sym HPX)). auto.
        * intros a b Ha Hb. apply (Permutation_in _ (Permutation_sym HPY)) in Hb. apply in_app_or in Ha as [Ha|Ha].
          -- apply HO; auto. apply (Permutation_in _ (Permutation_sym HPr)). apply in_or_app. auto.
          -- apply HXY; auto. apply (Permutation_in _ (Permutation_sym HPX)). auto.
      + apply wp_ret. exists O, rest. cj; auto. }
  intros g m (O & rest & -> & -> & HP & HS & HO). cbv beta.
  pose proof (Permutation_length HP) as HL. rewrite app_length in HL.
  reshape ((pre ++ map Val O) ++ map Val rest ++ post).
  replace (length pre + length O) with (length (pre ++ map Val O)) by lensr.
  replace l with (length (pre ++ map Val O) + length rest) by lensr.
  eapply wp_mono; [apply small_sort_wp; [lia|apply full_init]|].
  intros u m' [HPm HSm]. apply pm_decomp in HPm as (rest' & -> & HPr). exists (O ++ rest'). cj.
  - solve_app.
  - etransitivity; [exact HP|]. apply Permutation_app_head. auto.
  - apply sorted_app. cj; auto.
    + eapply sorted_range_list with (pre := pre ++ map Val O). rewrite <- (Permutation_length HPr). apply HSm; auto.
    + intros a b Ha Hb. apply HO; auto. apply (Permutation_in _ (Permutation_sym HPr)). auto.
Qed.
End QuickMerge.

Lemma quick_merge_sorts : forall A T (comp : T -> T -> bool) (proj : A -> T) cat, strict_weak_order comp ->
  sorts (by_proj comp proj) (quick_merge_sorter comp proj cat).
Proof.
  intros A T comp proj cat HC pre xs post.
  pose proof (quick_merge_sort_wp comp proj (swo_by_proj _ _ comp proj HC) cat pre xs post) as H.
  apply wp_ok in H as ([] & m' & E & ys & -> & HP & HS). exists ys. split; [exact E|]. split; auto.
Qed.

Lemma nth_element_splits : forall A T (comp : T -> T -> bool) (proj : A -> T) cat, strict_weak_order comp ->
  splits_nth (by_proj comp proj) (fun first last k => nth_element comp proj cat first last k (last - first)).
Proof.
  intros A T comp proj cat HC pre xs post k Hk.
  pose proof (nth_element_wp comp proj (swo_by_proj _ _ comp proj HC) cat (length pre) (length pre + length xs) k
    (pre ++ map Val xs ++ post) (full_init _ _ _) ltac:(lia)) as H.
  apply wp_ok in H as (r & m' & E & -> & HP & HPt). apply pm_decomp in HP as (ys & -> & HP).
  pose proof (Permutation_length HP) as HL.
  exists (firstn k ys), (skipn k ys). rewrite firstn_skipn. cj; auto.
  - rewrite firstn_length. lia.
  - intros x y Hx Hy. apply In_nth_error in Hx as (i & Hi). apply In_nth_error in Hy as (j & Hj).
    assert (i < k) as Hik. { apply nth_lt in Hi. rewrite firstn_length in Hi. lia. }
    assert (j < length ys - k) as Hjk. { apply nth_lt in Hj. rewrite skipn_length in Hj. lia. }
    apply (HPt (length pre + i) (length pre + (k + j))); try lia.
    + rewrite nth_pre_map_post by lia. rewrite <- (firstn_skipn k ys), nth_error_app1, Hi; auto. rewrite firstn_length. lia.
    + rewrite nth_pre_map_post by lia. rewrite <- (firstn_skipn k ys), nth_error_app2; rewrite firstn_length; [|lia].
      replace (k + j - Nat.min k (length ys)) with j by lia. rewrite Hj. reflexivity.
Qed.

Lemma nth_element_selects : forall A T (comp : T -> T -> bool) (proj : A -> T), strict_weak_order comp ->
  selects_nth (by_proj comp proj) (fun first last k => nth_element comp proj RandomAccess first last k (last - first)).
Proof.
  intros A T comp proj HC pre xs post k Hk. unfold nth_element, median_of_ninthers_select.
  destruct (Nat.eqb_spec (length pre + k) (length pre + length xs)); [lia|].
  replace (length pre + length xs - length pre) with (length xs) by lia. replace (length pre + k - length pre) with k by lia.
  pose proof (adaptive_quickselect_wp comp proj (lt_asym _ (swo_by_proj _ _ comp proj HC)) (S (length xs)) (length pre) k (length xs)
    (pre ++ map Val xs ++ post) (full_init _ _ _) Hk ltac:(lia)) as H.
  apply wp_ok in H as (r & m' & E & HP & z & Hz & Ez & R1 & R2). apply pm_decomp in HP as (ys & -> & HP).
  pose proof (Permutation_length HP) as HL.
  assert (nth_error ys k = Some z) as Hkz.
  { rewrite nth_pre_map_post in Ez by lia. destruct (nth_error ys k); simpl in Ez; congruence. }
  apply nth_error_split in Hkz as (ls & rs & -> & Hls).
  pose proof (swo_by_proj _ _ comp proj HC) as HW. exists ls, z, rs. rewrite app_length in HL. simpl in HL. cj; auto.
  - unfold bind. rewrite E. reflexivity.
  - intros x Hx. apply In_nth_error in Hx as (i & Hi). pose proof (nth_lt _ _ _ Hi). apply (R1 (length pre + i)); [lia| |exact HW].
    rewrite nth_pre_map_post by (rewrite app_length; lia). rewrite nth_error_app1, Hi; auto.
  - intros x Hx. apply In_nth_error in Hx as (i & Hi). pose proof (nth_lt _ _ _ Hi). apply (R2 (length pre + (S k + i))); [lia| |exact HW].
    rewrite nth_pre_map_post by (rewrite app_length; simpl; lia). rewrite nth_error_app2 by lia.
    replace (S k + i - length ls) with (S i) by lia. simpl. rewrite Hi. reflexivity.
Qed.
