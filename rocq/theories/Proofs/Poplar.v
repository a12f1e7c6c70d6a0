(** Poplar sort. *)
From Coq Require Import List Arith Lia Permutation Bool.
From Verif Require Import Spec.Order Lang.Mem Spec.Sorts Proofs.Wp Proofs.OrderLib Model.Basic Proofs.Basic
  Model.Insertion Proofs.Insertion Model.Poplar Proofs.IndexLib Proofs.PdqPart Proofs.Pdq Model.Quick Proofs.Quick.
Import ListNotations.

(** Sizes of poplars. *)
Definition psz (k : nat) : nat := 2 ^ k - 1.
Lemma psz_0 : psz 0 = 0.
Proof. reflexivity. Qed.
Lemma psz_S : forall k, psz (S k) = psz k + psz k + 1.
Proof. intros. unfold psz. simpl. pose proof (Nat.pow_nonzero 2 k). lia. Qed.
Lemma psz_1 : psz 1 = 1.
Proof. reflexivity. Qed.
Lemma psz_half : forall k, psz (S k) / 2 = psz k.
Proof. intros. rewrite psz_S. replace (psz k + psz k + 1) with (1 + psz k * 2) by lia. now rewrite Nat.div_add. Qed.
Lemma psz_half' : forall k, (psz (S k) - 1) / 2 = psz k.
Proof. intros. rewrite psz_S. replace (psz k + psz k + 1 - 1) with (psz k * 2) by lia. now rewrite Nat.div_mul. Qed.
Lemma psz_half'' : forall k, (psz (S k) + 1) / 2 - 1 = psz k.
Proof. intros. rewrite psz_S. replace (psz k + psz k + 1 + 1) with ((psz k + 1) * 2) by lia. rewrite Nat.div_mul; lia. Qed.
Lemma psz_lt : forall k, k <= psz k.
Proof. induction k; [lia|]. rewrite psz_S. lia. Qed.
Lemma psz_inj : forall k k', psz k = psz k' -> k = k'.
Proof.
  intros k k' H. unfold psz in H. pose proof (Nat.pow_nonzero 2 k). pose proof (Nat.pow_nonzero 2 k').
  apply (Nat.pow_inj_r 2); lia.
Qed.
Global Opaque psz.

Section Poplar.
Context {A T : Type} (comp : T -> T -> bool) (proj : A -> T).
Notation lt := (by_proj comp proj).
Implicit Types m V : mem A.
Notation LE z := (range_all (fun x => lt z x = false)).
Notation parted := (parted comp proj).

Fixpoint pop (k f : nat) m : Prop :=
  match k with
  | 0 => True
  | S k' => pop k' f m /\ pop k' (f + psz k') m /\
      forall z, nth_error m (f + psz k - 1) = Some (Val z) -> LE z f (f + psz k) m
  end.

Lemma pop_ext : forall k f m m', (forall i, f <= i < f + psz k -> nth_error m' i = nth_error m i) -> pop k f m -> pop k f m'.
Proof.
  induction k; intros f m m' HE H; [exact I|]. destruct H as (H1 & H2 & H3). pose proof (psz_S k). cbn [pop]. cj.
  - apply (IHk f m); auto. intros i Hi. apply HE. lia.
  - apply (IHk _ m); auto. intros i Hi. apply HE. lia.
  - intros z Hz. rewrite HE in Hz by lia. eapply range_all_ext; eauto.
Qed.

Lemma pop_all : forall k f m z, pop k f m -> nth_error m (f + psz k - 1) = Some (Val z) -> LE z f (f + psz k) m.
Proof.
  intros [|k] f m z H Hz. { intros i x Hi. rewrite psz_0 in Hi. lia. }
  destruct H as (_ & _ & H). auto.
Qed.

Lemma pop_build : strict_weak_order lt -> forall k f m z, pop k f m -> pop k (f + psz k) m ->
  full f (f + psz (S k)) m ->
  nth_error m (f + psz (S k) - 1) = Some (Val z) ->
  (forall x, 0 < k -> nth_error m (f + psz k - 1) = Some (Val x) -> lt z x = false) ->
  (forall x, 0 < k -> nth_error m (f + psz (S k) - 2) = Some (Val x) -> lt z x = false) -> pop (S k) f m.
Proof.
  intros HW k f m z H1 H2 Hf Hz Ha Hb. cbn [pop]. cj; auto. intros z' Hz'. assert (z' = z) by congruence. subst z'. clear Hz'.
  pose proof (psz_S k). intros i x Hi Hx.
  destruct (Nat.eq_dec i (f + psz (S k) - 1)) as [->|]. { assert (x = z) by congruence. subst. apply (lt_irrefl lt HW). }
  destruct k as [|k]. { rewrite psz_0 in *. lia. }
  destruct (Nat.lt_ge_cases i (f + psz (S k))).
  - rdv Hf (f + psz (S k) - 1) y Hy. apply (le_trans lt HW) with y. 2:{ apply Ha; auto; lia. }
    eapply pop_all; [exact H1|exact Hy| |exact Hx]. lia.
  - rdv Hf (f + psz (S (S k)) - 2) y Hy. apply (le_trans lt HW) with y. 2:{ apply Hb; auto; lia. }
    eapply pop_all; [exact H2| | |exact Hx]; [|lia]. rewrite <- Hy. f_equal. lia.
Qed.

Lemma sorted_pop : strict_weak_order lt -> forall k f m, full f (f + psz k) m -> sorted_range lt f (f + psz k) m -> pop k f m.
Proof.
  intros HW. induction k; intros f m Hf HS; [exact I|]. pose proof (psz_S k). cbn [pop]. cj.
  - apply IHk. { eapply full_sub; eauto; lia. } intros i j x y ? ? ?. apply HS; lia.
  - apply IHk. { eapply full_sub; eauto; lia. } intros i j x y ? ? ?. apply HS; lia.
  - intros z Hz i x Hi Hx. destruct (Nat.eq_dec i (f + psz (S k) - 1)) as [->|].
    + assert (x = z) by congruence. subst. apply (lt_irrefl lt HW).
    + apply (HS i (f + psz (S k) - 1) x z); auto; lia.
Qed.

(** The hole is at the root; [V] has the value there. *)
Lemma sift_loop_wp : forall k fuel f V value mr, k < fuel -> full f (f + psz (S (S k))) V ->
  nth_error V (f + psz (S (S k)) - 1) = Some (Val value) ->
  mr = f + psz (S k) - 1 \/ mr = f + psz (S (S k)) - 2 ->
  wp (loop fuel (sift_body comp proj value) (f + psz (S (S k)) - 1, mr, psz (S (S k)))) (fun r m' => exists V',
    m' = upd r Moved V' /\ f <= r < f + psz (S (S k)) /\ nth_error V' r = Some (Val value) /\ pm f (f + psz (S (S k))) V V' /\
    (strict_weak_order lt -> pop (S k) f V -> pop (S k) (f + psz (S k)) V ->
       (forall y, nth_error V mr = Some (Val y) -> lt y value = false /\
          (forall x, nth_error V (f + psz (S k) - 1) = Some (Val x) -> lt y x = false) /\
          (forall x, nth_error V (f + psz (S (S k)) - 2) = Some (Val x) -> lt y x = false)) ->
       pop (S (S k)) f V')) (upd (f + psz (S (S k)) - 1) Moved V).
Proof.
  induction k as [|k IH]; intros fuel f V value mr Hfu Hf Hv Hmr.
  - destruct fuel as [|fuel]; [lia|]. cbn [loop]. apply wp_bind. unfold sift_body at 1.
    change (psz 2) with 3 in *. change (psz 1) with 1 in *. apply wp_bind.
    eapply wp_move_hole_pm with (f := f) (l := f + 3); eauto; try lia. intros V1 HP HS Hr.
    change (3 / 2 <? 2) with true. cbv iota. apply wp_ret, wp_ret. exists V1. cj; auto; try lia.
    intros HW _ _ HY. rdv Hf mr y Hy. destruct (HY y Hy) as (Y1 & Y2 & Y3). cbn [pop].
    change (psz 2) with 3. change (psz 1) with 1. change (psz 0) with 0.
    assert (forall j, nth_error V1 j = nth_error V (tr (f + 3 - 1) mr j)) as HS' by exact HS.
    cj; auto; try (intros z Hz i x Hi Hx; assert (x = z) by (replace i with (f + 1 - 1) in * by lia; congruence); subst; apply (lt_irrefl lt HW)).
    + intros z Hz i x Hi Hx. assert (x = z) by (replace i with (f + 1 + 1 - 1) in * by lia; congruence); subst; apply (lt_irrefl lt HW).
    + intros z Hz. rewrite HS', tr_l in Hz. assert (z = y) by congruence. subst z.
      eapply (pm_range_all (fun x => lt y x = false)); eauto. { destruct Hf. lia. }
      intros i x Hi Hx. assert (i = f + 1 - 1 \/ i = f + 3 - 2 \/ i = f + 3 - 1) as [->|[->| ->]] by lia; auto.
      assert (x = value) by congruence. subst. auto.
  - pose proof (psz_S (S (S k))) as P3. pose proof (psz_S (S k)) as P2. pose proof (psz_S k) as P1.
    destruct fuel as [|fuel]; [lia|]. cbn [loop]. apply wp_bind. unfold sift_body at 1. apply wp_bind.
    eapply wp_move_hole_pm with (f := f) (l := f + psz (S (S (S k)))); eauto; try lia. intros V1 HP HS Hr.
    rewrite psz_half. cbv zeta. destruct (Nat.ltb_spec (psz (S (S k))) 2); [lia|].
    rewrite psz_half.
    assert (full f (f + psz (S (S (S k)))) V1) as Hf1 by (eapply pm_full; eauto).
    assert (exists fc, f <= fc /\ mr = fc + psz (S (S k)) - 1 /\ fc + psz (S (S k)) < f + psz (S (S (S k))) /\
      (fc = f \/ fc = f + psz (S (S k)))) as (fc & Hfc & Emr & Hfc2 & Hfc3).
    { destruct Hmr as [->| ->]. - exists f. cj; auto; lia. - exists (f + psz (S (S k))). cj; auto; lia. }
    assert (full fc (fc + psz (S (S k))) V1) as Hfs by (eapply full_sub; eauto; lia).
    replace (mr - (psz (S (S k)) - psz (S k))) with (fc + psz (S k) - 1) by lia.
    replace (mr - 1) with (fc + psz (S (S k)) - 2) by lia.
    rdv Hfs (fc + psz (S k) - 1) xa Hxa. rdv Hfs (fc + psz (S (S k)) - 2) xb Hxb.
    apply wp_bind. eapply (wp_less_at comp proj _ _ xa xb); [nupd; auto..|].
    set (mc := if lt xa xb then fc + psz (S (S k)) - 2 else fc + psz (S k) - 1).
    set (xm := if lt xa xb then xb else xa).
    assert (nth_error V1 mc = Some (Val xm)) as Hxm by (unfold mc, xm; destruct (lt xa xb); auto).
    assert (mc <> mr) as Hmc by (unfold mc; destruct (lt xa xb); lia).
    apply wp_bind. apply wp_get with xm. { nupd. auto. }
    change (comp (proj value) (proj xm)) with (lt value xm).
    (* facts for the end *)
    assert (forall V', pm fc (fc + psz (S (S k))) V1 V' -> pm f (f + psz (S (S (S k)))) V V') as HPM.
    { intros V' HP'. eapply pm_trans; [exact HP|]. eapply pm_widen; eauto; lia. }
    assert (forall V', pm fc (fc + psz (S (S k))) V1 V' -> strict_weak_order lt ->
       pop (S (S k)) f V -> pop (S (S k)) (f + psz (S (S k))) V ->
       (forall y, nth_error V mr = Some (Val y) -> lt y value = false /\
          (forall x, nth_error V (f + psz (S (S k)) - 1) = Some (Val x) -> lt y x = false) /\
          (forall x, nth_error V (f + psz (S (S (S k))) - 2) = Some (Val x) -> lt y x = false)) ->
       pop (S (S k)) fc V' -> pop (S (S (S k))) f V') as HEND.
    { intros V' HP' HW Hpa Hpb HY Hpc. rdv Hf mr y Hy. destruct (HY y Hy) as (Y1 & Y2 & Y3).
      assert (nth_error V' (f + psz (S (S (S k))) - 1) = Some (Val y)) as Hroot.
      { rewrite (pm_out _ _ _ _ _ HP') by lia. rewrite HS, tr_l. auto. }
      assert (forall i, f <= i < f + psz (S (S (S k))) - 1 -> ~ (fc <= i < fc + psz (S (S k))) -> nth_error V' i = nth_error V i) as Hoth.
      { intros i Hi Hni. rewrite (pm_out _ _ _ _ _ HP') by lia. rewrite HS, tr_o by lia. auto. }
      assert (LE y f (f + psz (S (S (S k)))) V') as HLE.
      { eapply pm_range_all; [apply HPM; exact HP'|destruct Hf; lia|].
        intros i x Hi Hx. destruct (Nat.eq_dec i (f + psz (S (S (S k))) - 1)) as [->|].
        { assert (x = value) by congruence. subst. auto. }
        destruct (Nat.lt_ge_cases i (f + psz (S (S k)))).
        - rdv Hf (f + psz (S (S k)) - 1) w Hw. apply (le_trans lt HW) with w; [|apply Y2; exact Hw]. apply (pop_all _ _ _ _ Hpa Hw i x); [lia|exact Hx].
        - rdv Hf (f + psz (S (S (S k))) - 2) w Hw. apply (le_trans lt HW) with w; [|apply Y3; exact Hw].
          assert (nth_error V (f + psz (S (S k)) + psz (S (S k)) - 1) = Some (Val w)) as Hw' by (rewrite <- Hw; f_equal; lia).
          apply (pop_all _ _ _ _ Hpb Hw' i x); [lia|exact Hx]. }
      remember (S (S k)) as k2. cbn [pop]. cj.
      - destruct Hfc3 as [->| ->]; auto. apply (pop_ext _ _ V); auto. intros i Hi. apply Hoth; lia.
      - destruct Hfc3 as [->| ->]; auto. apply (pop_ext _ _ V); auto. intros i Hi. apply Hoth; lia.
      - intros z Hz. assert (z = y) by congruence. subst. auto. }
    assert (pop (S (S k)) f V -> pop (S (S k)) (f + psz (S (S k))) V -> pop (S k) fc V1 /\ pop (S k) (fc + psz (S k)) V1) as HSUB.
    { intros Hpa Hpb. assert (pop (S (S k)) fc V) as Hpc by (destruct Hfc3 as [->| ->]; auto).
      destruct Hpc as (Q1 & Q2 & _). split; [apply (pop_ext _ _ V V1)|apply (pop_ext _ _ V V1)]; [|exact Q1| |exact Q2]; intros i Hi; rewrite HS, tr_o by lia; auto. }
    destruct (lt value xm) eqn:Evx.
    + destruct (Nat.eqb_spec mc mr); [congruence|]. apply wp_ret.
      rewrite Emr in Hr. rewrite Emr at 1 2.
      eapply wp_mono. { apply (IH fuel fc V1 value mc); auto; try lia. unfold mc. destruct (lt xa xb); auto. }
      intros r m' (V' & -> & Hr' & Hval & HPV & HIMP). exists V'. cj; auto; try lia.
      intros HW Hpa Hpb HY. apply HEND; auto. destruct (HSUB Hpa Hpb) as [Q1 Q2]. apply HIMP; auto.
      intros y Hy. assert (y = xm) by congruence. subst y. cj.
      * now apply (lt_asym lt HW).
      * intros x Hx. assert (x = xa) by congruence. subst. unfold xm. destruct (lt xa xb) eqn:E; [now apply (lt_asym lt HW)|apply (lt_irrefl lt HW)].
      * intros x Hx. assert (x = xb) by congruence. subst. unfold xm. destruct (lt xa xb) eqn:E; [apply (lt_irrefl lt HW)|auto].
    + rewrite Nat.eqb_refl. apply wp_ret, wp_ret. exists V1. cj; auto; try lia.
      intros HW Hpa Hpb HY. apply HEND; auto; [apply pm_refl|]. destruct (HSUB Hpa Hpb) as [Q1 Q2].
      apply (pop_build HW _ _ _ value); auto.
      * rewrite Emr in Hr. auto.
      * intros x _ Hx. assert (x = xa) by congruence. subst. unfold xm in Evx. destruct (lt xa xb) eqn:E; auto.
        apply (le_trans lt HW) with xb; auto. now apply (lt_asym lt HW).
      * intros x _ Hx. assert (x = xb) by congruence. subst. unfold xm in Evx. destruct (lt xa xb) eqn:E; auto.
        apply (le_trans lt HW) with xa; auto.
Qed.

Lemma poplar_sift_wp : forall k f m, full f (f + psz k) m ->
  wp (poplar_sift comp proj f (psz k)) (fun _ m' => pm f (f + psz k) m m' /\
    (strict_weak_order lt -> (forall k', k = S k' -> pop k' f m /\ pop k' (f + psz k') m) -> pop k f m')) m.
Proof.
  intros k f m Hf. unfold poplar_sift. destruct (Nat.ltb_spec (psz k) 2) as [Hs|Hs].
  { apply wp_ret. split; [apply pm_refl|]. intros HW _. apply sorted_pop; auto. intros i j x y. lia. }
  destruct k as [|[|k]]; [rewrite psz_0 in Hs; lia|rewrite psz_1 in Hs; lia|].
  pose proof (psz_S (S k)) as P2. pose proof (psz_S k) as P1. rewrite psz_half. cbv zeta.
  replace (f + (psz (S (S k)) - 1) - 1) with (f + psz (S (S k)) - 2) by lia.
  replace (f + (psz (S (S k)) - 1)) with (f + psz (S (S k)) - 1) by lia.
  replace (f + (psz (S k) - 1)) with (f + psz (S k) - 1) by lia.
  set (r := f + psz (S (S k)) - 1). set (b := f + psz (S (S k)) - 2). set (a := f + psz (S k) - 1).
  rdv Hf r z Hz. rdv Hf b xb Hb. rdv Hf a xa Ha.
  apply wp_bind. eapply (wp_less_at comp proj r b z xb); auto.
  set (m1 := if lt z xb then b else r). set (x1 := if lt z xb then xb else z).
  assert (nth_error m m1 = Some (Val x1)) as H1 by (unfold m1, x1; destruct (lt z xb); auto).
  apply wp_bind. eapply (wp_less_at comp proj m1 a x1 xa); auto.
  set (m2 := if lt x1 xa then a else m1). set (x2 := if lt x1 xa then xa else x1).
  assert (nth_error m m2 = Some (Val x2)) as H2 by (unfold m2, x2; destruct (lt x1 xa); auto).
  assert (strict_weak_order lt -> lt x2 xa = false /\ lt x2 xb = false /\ lt x2 z = false) as HX.
  { intros HW. unfold x2. assert (lt x1 z = false /\ lt x1 xb = false) as [E1 E2].
    { unfold x1. destruct (lt z xb) eqn:E; split; auto; try apply (lt_irrefl lt HW). now apply (lt_asym lt HW). }
    destruct (lt x1 xa) eqn:E; auto. apply (lt_asym lt HW) in E. cj; [apply (lt_irrefl lt HW)|apply (le_trans lt HW) with x1; auto..]. }
  destruct (Nat.eqb_spec m2 r) as [E|E].
  - apply wp_ret. split; [apply pm_refl|]. intros HW HP. destruct (HP (S k) eq_refl) as [Q1 Q2]. destruct (HX HW) as (X1 & X2 & X3).
    assert (x2 = z) as Hx2 by congruence. rewrite Hx2 in X1, X2, X3. apply (pop_build HW _ _ _ z); auto.
    + intros x _ Hx. assert (x = xa) by (unfold a in Ha; congruence). subst x. auto.
    + intros x _ Hx. assert (x = xb) by (unfold b in Hb; congruence). subst x. auto.
  - apply wp_bind. eapply wp_take; eauto. apply wp_bind. eapply wp_mono.
    { apply (sift_loop_wp k (psz (S (S k))) f m z m2); auto.
      - pose proof (psz_lt (S (S k))). lia.
      - unfold m2, m1 in *. destruct (lt x1 xa); auto. destruct (lt z xb); auto. congruence. }
    intros r' m' (V' & -> & Hr' & Hv & HP & HI).
    eapply wp_put_hole; eauto. split; auto. intros HW HPP. destruct (HPP (S k) eq_refl) as [Q1 Q2]. destruct (HX HW) as (X1 & X2 & X3).
    apply HI; auto. intros y Hy. assert (y = x2) as -> by congruence. cj; auto.
    + intros x Hx. assert (x = xa) by (unfold a in Ha; congruence). subst x. auto.
    + intros x Hx. assert (x = xb) by (unfold b in Hb; congruence). subst x. auto.
Qed.

Lemma make_poplar_wp : forall fuel k f m, k < fuel -> full f (f + psz k) m ->
  wp (make_poplar comp proj fuel f (f + psz k)) (fun _ m' => pm f (f + psz k) m m' /\ (strict_weak_order lt -> pop k f m')) m.
Proof.
  induction fuel as [|fuel IH]; intros k f m Hfu Hf; [lia|]. cbn [make_poplar]. replace (f + psz k - f) with (psz k) by lia.
  destruct (Nat.ltb_spec (psz k) 16).
  - eapply wp_mono; [apply insertion_index; auto; lia|]. intros u m' [HP HS]. split; auto. intros HW. apply sorted_pop; auto.
    eapply pm_full; eauto.
  - destruct k as [|k]; [rewrite psz_0 in *; lia|]. pose proof (psz_S k) as P. rewrite psz_half.
    replace (f + psz (S k) - 1) with (f + psz k + psz k) by lia.
    apply wp_bind. eapply wp_mono; [apply IH; [lia|eapply full_sub; eauto; lia]|]. intros u1 m1 [HP1 HS1]. cbv beta.
    assert (pm f (f + psz (S k)) m m1) as HP1' by (eapply pm_widen; eauto; lia).
    assert (full f (f + psz (S k)) m1) as Hf1 by (eapply pm_full; eauto).
    apply wp_bind. eapply wp_mono; [apply IH; [lia|eapply full_sub; eauto; lia]|]. intros u2 m2 [HP2 HS2]. cbv beta.
    assert (pm f (f + psz (S k)) m1 m2) as HP2' by (eapply pm_widen; eauto; lia).
    assert (full f (f + psz (S k)) m2) as Hf2 by (eapply pm_full; eauto).
    eapply wp_mono; [apply poplar_sift_wp; auto|]. intros u3 m3 [HP3 HS3]. split.
    { eapply pm_trans; [exact HP1'|]. eapply pm_trans; eauto. }
    intros HW. apply HS3; auto. intros k' [= <-]. split; auto.
    apply (pop_ext _ _ m1); auto. intros i Hi. apply (pm_out _ _ _ _ _ HP2). lia.
Qed.

(** The poplars of a list, last first, cover the range. *)
Fixpoint chain (f c : nat) (ps : list poplar) : Prop :=
  match ps with
  | [] => c = f
  | (b, e, n) :: rest => e = c /\ (exists k, 0 < k /\ n = psz k /\ e = b + psz k) /\ chain f b rest
  end.
Definition popp m (p : poplar) : Prop := forall k, snd p = psz k -> pop k (fst (fst p)) m.

Lemma chain_le : forall ps f c, chain f c ps -> f <= c /\ (ps <> [] -> f < c).
Proof.
  induction ps as [|[[b e] n] rest IH]; intros f c H. { simpl in H. subst. split; auto. congruence. }
  destruct H as (-> & (k & Hk & -> & ->) & H). apply IH in H. pose proof (psz_lt k). lia.
Qed.

Lemma chain_in : forall ps f c p, chain f c ps -> In p ps ->
  exists b k, p = (b, b + psz k, psz k) /\ 0 < k /\ f <= b /\ b + psz k <= c.
Proof.
  induction ps as [|[[b e] n] rest IH]; intros f c p H Hp; [destruct Hp|].
  destruct H as (-> & (k & Hk & -> & ->) & H). pose proof (chain_le _ _ _ H). destruct Hp as [<-|Hp].
  - exists b, k. cj; auto; lia.
  - destruct (IH _ _ _ H Hp) as (b' & k' & -> & ? & ? & ?). exists b', k'. cj; auto; lia.
Qed.

(** Every cell is in a poplar. *)
Lemma chain_cell : forall ps f c i, chain f c ps -> f <= i < c ->
  exists b k, In (b, b + psz k, psz k) ps /\ 0 < k /\ b <= i < b + psz k.
Proof.
  induction ps as [|[[b e] n] rest IH]; intros f c i H Hi. { simpl in H. lia. }
  destruct H as (-> & (k & Hk & -> & ->) & H). destruct (Nat.lt_ge_cases i b).
  - destruct (IH f b i H) as (b' & k' & ? & ? & ?); [lia|]. exists b', k'. cj; try lia. right. auto.
  - exists b, k. cj; try lia. left; auto.
Qed.

Lemma popp_ext : forall ps f c m m', chain f c ps -> (forall i, f <= i < c -> nth_error m' i = nth_error m i) ->
  Forall (popp m) ps -> Forall (popp m') ps.
Proof.
  intros ps f c m m' HC HE HF. apply Forall_forall. intros p Hp k Hk. rewrite Forall_forall in HF. specialize (HF _ Hp k Hk).
  destruct (chain_in _ _ _ _ HC Hp) as (b & k' & -> & ? & ? & ?). simpl in *. apply psz_inj in Hk. subst.
  apply (pop_ext _ _ m); auto. intros i Hi. apply HE. lia.
Qed.

(** Poplars other than one do not meet it. *)
Lemma popp_ext_but : forall ps f c m m' b k, chain f c ps -> In (b, b + psz k, psz k) ps ->
  (forall i, f <= i < c -> ~ (b <= i < b + psz k) -> nth_error m' i = nth_error m i) ->
  pop k b m' -> Forall (popp m) ps -> Forall (popp m') ps.
Proof.
  induction ps as [|[[b0 e] n] rest IH]; intros f c m m' b k HC Hin HE Hpop HF; [destruct Hin|].
  pose proof HC as (-> & (k0 & Hk0 & -> & ->) & H). inversion HF as [|? ? H1 H2]; subst. pose proof (chain_le _ _ _ H) as Hle.
  destruct Hin as [Heq|Hin].
  - injection Heq as -> _ Heq. apply psz_inj in Heq. subst k0. constructor.
    + intros k' Hk'. apply psz_inj in Hk'. subst. auto.
    + apply (popp_ext rest f b m m' H); [|exact H2]. intros i Hi. apply HE; lia.
  - destruct (chain_in _ _ _ _ H Hin) as (b' & k' & [= <- _ E] & Hk' & Hb1 & Hb2). apply psz_inj in E. subst k'. constructor.
    + intros k2 Hk2. apply (pop_ext _ _ m); auto. apply psz_inj in Hk2. subst. intros i Hi. simpl in Hi. apply HE; lia.
    + apply (IH f b0 m m' b k); auto. intros i Hi Hni. apply HE; lia.
Qed.

Lemma relocate_wp : forall b k rest f m, 0 < k -> chain f b rest -> full f (b + psz k) m ->
  wp (relocate comp proj (b, b + psz k, psz k) rest) (fun _ m' => pm f (b + psz k) m m' /\
    (strict_weak_order lt -> Forall (popp m) ((b, b + psz k, psz k) :: rest) ->
       Forall (popp m') ((b, b + psz k, psz k) :: rest) /\
       forall z, nth_error m' (b + psz k - 1) = Some (Val z) -> LE z f (b + psz k) m')) m.
Proof.
  intros b k rest f m Hk HC Hf. set (back := (b, b + psz k, psz k)). set (c := b + psz k) in *.
  assert (chain f c (back :: rest)) as HC'. { simpl. cj; eauto. }
  pose proof (chain_le _ _ _ HC) as [Hfb _]. pose proof (psz_lt k) as Hpk.
  unfold relocate. apply wp_bind.
  apply wp_mono with (Q := fun '(bigger, moved) m' => m' = m /\ In bigger (back :: rest) /\
    ((moved = false /\ bigger = back) \/ (moved = true /\ In bigger rest)) /\
    (strict_weak_order lt -> forall z p x, nth_error m (root bigger) = Some (Val z) -> In p (back :: rest) ->
       nth_error m (root p) = Some (Val x) -> lt z x = false)).
  { apply wp_loop' with (I := fun '(bigger, moved, it) m' => m' = m /\ exists done, rev rest = done ++ it /\ In bigger (back :: rest) /\
      ((moved = false /\ bigger = back) \/ (moved = true /\ In bigger rest)) /\
      (strict_weak_order lt -> forall z p x, nth_error m (root bigger) = Some (Val z) -> In p (back :: done) ->
         nth_error m (root p) = Some (Val x) -> lt z x = false)) (mu := fun '(bigger, moved, it) => length it).
    - split; auto. exists []. cj; simpl; auto. intros HW z p x Hz [<-|[]] Hx. assert (x = z) by congruence. subst. apply (lt_irrefl lt HW).
    - rewrite rev_length. lia.
    - intros [[bigger moved] it] m' (-> & done & E & Hin & Hmv & HB). destruct it as [|p it].
      + apply wp_ret. cj; auto. intros HW z p x Hz Hp Hx. apply (HB HW z p x); auto. rewrite app_nil_r in E. subst done.
        destruct Hp as [<-|Hp]; [left; auto|right]. now apply -> in_rev.
      + assert (In p rest) as Hp. { apply in_rev. rewrite E. apply in_or_app. right. left. auto. }
        assert (forall q, In q (back :: rest) -> f <= root q < c) as HR.
        { intros q Hq. destruct (chain_in _ _ _ _ HC' Hq) as (b' & k' & -> & ? & ? & ?). unfold root. simpl. pose proof (psz_lt k'). lia. }
        apply wp_bind. pose proof (HR bigger Hin). pose proof (HR p (or_intror Hp)). rdv Hf (root bigger) z Hz. rdv Hf (root p) x Hx.
        eapply wp_less_at; eauto. apply wp_ret. destruct (lt z x) eqn:Ezx.
        * split; [|simpl; lia]. split; auto. exists (done ++ [p]). cj; auto.
          { rewrite E. now rewrite <- app_assoc. }
          { right; auto. }
          intros HW z' q y Hz' Hq Hy. assert (z' = x) by congruence. subst z'.
          assert (In q (back :: done) \/ q = p) as [Hq'| ->].
          { destruct Hq as [<-|Hq]; [left; left; auto|]. apply in_app_or in Hq as [Hq|[<-|[]]]; auto. left; right; auto. }
          { apply (le_trans lt HW) with z; [|now apply (lt_asym lt HW)]. apply (HB HW z q y); auto. }
          { assert (y = x) by congruence. subst. apply (lt_irrefl lt HW). }
        * split; [|simpl; lia]. split; auto. exists (done ++ [p]). cj; auto.
          { rewrite E. now rewrite <- app_assoc. }
          intros HW z' q y Hz' Hq Hy. assert (z' = z) by congruence. subst z'.
          assert (In q (back :: done) \/ q = p) as [Hq'| ->].
          { destruct Hq as [<-|Hq]; [left; left; auto|]. apply in_app_or in Hq as [Hq|[<-|[]]]; auto. left; right; auto. }
          { apply (HB HW z q y); auto. }
          { assert (y = x) by congruence. subst. auto. } }
  intros [bigger moved] m' (-> & Hin & Hmv & HB). cbv beta iota.
  (* the bigger root is greater than everything *)
  assert (strict_weak_order lt -> Forall (popp m) (back :: rest) -> forall z, nth_error m (root bigger) = Some (Val z) -> LE z f c m) as HALL.
  { intros HW HF z Hz i x Hi Hx. destruct (chain_cell _ _ _ i HC' Hi) as (b' & k' & Hin' & Hk' & Hi').
    destruct (chain_in _ _ _ _ HC' Hin') as (b2 & k2 & [= <- _ E2] & _ & Hb1 & Hb2). apply psz_inj in E2. subst k2.
    rewrite Forall_forall in HF. specialize (HF _ Hin' k' eq_refl). simpl in HF. pose proof (psz_lt k').
    rdv Hf (b' + psz k' - 1) y Hy. apply (le_trans lt HW) with y.
    - apply (pop_all _ _ _ _ HF Hy i x); auto.
    - apply (HB HW z _ y Hz Hin'). exact Hy. }
  destruct Hmv as [[-> ->]|[-> Hbr]].
  - apply wp_ret. split; [apply pm_refl|]. intros HW HF. split; auto.
  - destruct (chain_in _ _ _ _ HC Hbr) as (b' & k' & -> & Hk' & Hb1 & Hb2). pose proof (psz_lt k') as Hpk'.
    unfold root at 1 2. cbn [fst snd]. change (snd (fst back)) with c. change (root (b', b' + psz k', psz k')) with (b' + psz k' - 1) in *.
    apply wp_bind. eapply wp_swap_pm with (f := f) (l := c); eauto; try lia. intros m1 HP1 HS1.
    assert (full f c m1) as Hf1 by (eapply pm_full; eauto).
    eapply wp_mono. { apply poplar_sift_wp. eapply full_sub; eauto; lia. }
    intros u m2 [HP2 HI2].
    assert (pm f c m1 m2) as HP2' by (eapply pm_widen; eauto; lia).
    split. { eapply pm_trans; eauto. }
    intros HW HF. pose proof HF as HF'. rewrite Forall_forall in HF'.
    rdv Hf (b' + psz k' - 1) z Hz. pose proof (HALL HW HF z Hz) as HLE.
    assert (nth_error m2 (c - 1) = Some (Val z)) as Hroot.
    { rewrite (pm_out _ _ _ _ _ HP2) by lia. rewrite HS1, tr_r. auto. }
    assert (LE z f c m2) as HLE2. { eapply pm_range_all; [exact (pm_trans _ _ _ _ _ HP1 HP2')| |exact HLE]. destruct Hf. lia. }
    split.
    + inversion HF as [|? ? Hb0 Hr0]; subst. constructor.
      * intros k2 Hk2. apply psz_inj in Hk2. subst k2. simpl. destruct k as [|k]; [lia|]. pose proof (psz_S k).
        specialize (Hb0 (S k) eq_refl). destruct Hb0 as (Q1 & Q2 & _).
        assert (forall i, b <= i < c - 1 -> nth_error m2 i = nth_error m i) as HE.
        { intros i Hi. rewrite (pm_out _ _ _ _ _ HP2) by lia. rewrite HS1, tr_o by lia. auto. }
        cbn [pop]. cj.
        -- apply (pop_ext _ _ m); auto. intros i Hi. apply HE. lia.
        -- apply (pop_ext _ _ m); auto. intros i Hi. apply HE. lia.
        -- intros z' Hz'. assert (z' = z) by (unfold c in Hroot; congruence). subst z'. intros i x Hi. apply HLE2. unfold c. lia.
      * apply (popp_ext_but _ f b m m2 b' k'); [auto|auto| | |exact Hr0].
        { intros i Hi Hni. rewrite (pm_out _ _ _ _ _ HP2) by lia. rewrite HS1, tr_o by lia. auto. }
        apply HI2; auto. intros k2 ->. pose proof (psz_S k2). specialize (HF' (b', b' + psz (S k2), psz (S k2)) ltac:(right; auto) (S k2) eq_refl).
        destruct HF' as (Q1 & Q2 & _). split; [apply (pop_ext _ _ m)|apply (pop_ext _ _ m)]; auto;
        intros i Hi; simpl in Hi; rewrite HS1, tr_o by lia; auto.
    + intros z' Hz'. assert (z' = z) by congruence. subst. auto.
Qed.

Lemma make_poplars_wp : forall k f l m, f <= l -> full f l m -> 0 < k ->
  wp (make_poplars comp proj f l (psz k)) (fun ps m' => pm f l m m' /\ chain f l ps /\
    (strict_weak_order lt -> Forall (popp m') ps)) m.
Proof.
  intros k f l m Hfl Hf Hk. unfold make_poplars.
  apply wp_loop' with (I := fun '(it, n, ps) m' => pm f l m m' /\ f <= it <= l /\ chain f it ps /\
    (exists k, 0 < k /\ n = psz k) /\ (strict_weak_order lt -> Forall (popp m') ps)) (mu := fun '(it, n, ps) => l - it + n).
  - cj; auto; try lia. { apply pm_refl. } all: try (exists k; auto; fail). all: simpl; auto.
  - lia.
  - clear k Hk. intros [[it n] ps] m1 (HP1 & Hit & HC & (k & Hk & ->) & HF).
    assert (full f l m1) as Hf1 by (eapply pm_full; eauto). pose proof (psz_lt k).
    destruct (Nat.leb_spec (psz k) (l - it)).
    + apply wp_bind. eapply wp_mono; [apply make_poplar_wp; [lia|eapply full_sub; eauto; lia]|].
      intros u m2 [HP2 HS2]. cbv beta. destruct (Nat.ltb_spec 0 (psz k)); [|lia]. apply wp_ret.
      assert (pm f l m1 m2) as HP2' by (eapply pm_widen; eauto; lia).
      split; [|lia]. cj; try lia.
      * eapply pm_trans; eauto.
      * simpl. cj; auto. exists k. auto.
      * exists k. auto.
      * intros HW. constructor.
        { intros k' Hk'. apply psz_inj in Hk'. subst. simpl. auto. }
        apply (popp_ext ps f it m1 m2 HC); [|auto]. intros i Hi. apply (pm_out _ _ _ _ _ HP2). lia.
    + destruct k as [|k]; [lia|]. rewrite psz_half''. pose proof (psz_S k). destruct (Nat.ltb_spec 0 (psz k)).
      * apply wp_ret. split; [|lia]. cj; auto; try lia. exists k. split; auto. destruct k; [rewrite psz_0 in *|]; lia.
      * apply wp_ret. cj; auto. replace l with it by lia. auto.
Qed.

(** Moving the greatest element of the unsorted part to the sorted one. *)
Lemma extract : forall f c l m z, f < c -> c <= l -> nth_error m (c - 1) = Some (Val z) -> LE z f c m ->
  sorted_range lt c l m -> parted f c l m -> sorted_range lt (c - 1) l m /\ parted f (c - 1) l m.
Proof.
  intros f c l m z Hfc Hcl Hz HLE HS HP. split.
  - intros i j x y Hi Hij Hj Hx Hy. destruct (Nat.eq_dec i (c - 1)) as [->|].
    + apply (HP (c - 1) j x y); auto; lia.
    + apply (HS i j x y); auto; lia.
  - intros i j x y Hi Hj Hx Hy. destruct (Nat.eq_dec j (c - 1)) as [->|].
    + assert (y = z) by congruence. subst. apply (HLE i x); auto; lia.
    + apply (HP i j x y); auto; lia.
Qed.

Lemma parted_pm : forall f c l m m', pm f c m m' -> full f c m -> parted f c l m -> parted f c l m'.
Proof.
  intros f c l m m' HP Hf H i j x y Hi Hj Hx Hy. rewrite (pm_out _ _ _ _ _ HP) in Hy by lia.
  assert (range_all (fun x => lt y x = false) f c m') as HR.
  { eapply pm_range_all; eauto. { destruct Hf; lia. } intros k a Hk Ha. apply (H k j a y); auto. }
  apply (HR i x); auto.
Qed.

Lemma sort_poplars_wp : forall fuel ps f l m, l - f < fuel -> chain f l ps -> 2 <= l - f -> full f l m ->
  wp (sort_poplars comp proj fuel ps) (fun _ m' => pm f l m m' /\
    (strict_weak_order lt -> Forall (popp m) ps -> sorted_range lt f l m')) m.
Proof.
  intros fuel ps f l m Hfu HC Hlen Hf. unfold sort_poplars.
  set (Z := strict_weak_order lt /\ Forall (popp m) ps).
  apply wp_mono with (Q := fun _ m' => pm f l m m' /\ (Z -> sorted_range lt f l m')).
  2:{ intros u m' [H1 H2]. split; auto. intros. apply H2. split; auto. }
  apply wp_loop_k with (k := l - f) (I := fun n ps m1 => exists c, n = c - f /\ f < c <= l /\ chain f c ps /\ pm f l m m1 /\
    (Z -> Forall (popp m1) ps /\ sorted_range lt c l m1 /\ parted f c l m1)); auto.
  - exists l. cj; auto; try lia. { apply pm_refl. }
    intros [HW HF]. cj; auto; intros i j x y; lia.
  - assert (Z -> strict_weak_order lt) as HZ by (intros [? _]; auto). clearbody Z. clear HC ps Hfu Hlen.
    intros n ps m1 (c & -> & Hc & HC & HP1 & HI). assert (full f l m1) as Hf1 by (eapply pm_full; eauto).
    destruct ps as [|[[b e] n] rest]. { simpl in HC. lia. }
    destruct HC as (-> & (k & Hk & -> & ->) & HC). apply wp_bind.
    eapply wp_mono. { apply relocate_wp with (f := f); auto. eapply full_sub; eauto; lia. }
    intros u m2 [HP2 HI2]. cbv beta. clear u. pose proof (chain_le _ _ _ HC) as [Hfb _]. pose proof (psz_lt k) as Hpk.
    assert (pm f l m1 m2) as HP2' by (eapply pm_widen; eauto; lia).
    assert (full f l m2) as Hf2 by (eapply pm_full; eauto).
    pose proof (pm_trans _ _ _ _ _ HP1 HP2') as HPm. set (c := b + psz k) in *.
    assert (Z -> Forall (popp m2) ((b, c, psz k) :: rest) /\ sorted_range lt (c - 1) l m2 /\ parted f (c - 1) l m2) as HN.
    { intros HZ'. destruct (HI HZ') as (F1 & F2 & F3). destruct (HI2 (HZ HZ') F1) as [G1 G2]. split; auto.
      rdv Hf2 (c - 1) z Hz. apply (extract f c l m2 z); auto; try lia.
      - intros i j x y Hi Hij Hj Hx Hy. rewrite (pm_out _ _ _ _ _ HP2) in Hx by lia. rewrite (pm_out _ _ _ _ _ HP2) in Hy by lia. apply (F2 i j x y); auto.
      - eapply parted_pm; eauto. eapply full_sub; eauto; lia. }
    clear HI HI2 HP1 HP2 HP2' Hf1 m1.
    assert (forall b k c rest (m2 : mem A), 0 < k -> psz k <> 1 -> c = b + psz k -> chain f b rest ->
      chain f (c - 1) (split_back (b, c, psz k) rest) /\
      (Forall (popp m2) ((b, c, psz k) :: rest) -> Forall (popp m2) (split_back (b, c, psz k) rest))) as HSPLIT.
    { clear. intros b k c rest m2 Hk Hk1 -> HC. destruct k as [|k]; [lia|].
      assert (0 < k) as Hk'. { destruct k; [|lia]. rewrite psz_1 in Hk1. congruence. }
      unfold split_back. rewrite psz_half'. pose proof (psz_S k). split.
      - cbn [chain]. cj; auto; exists k; cj; auto; lia.
      - intros HF. inversion HF as [|? ? H1 H2]; subst. destruct (H1 (S k) eq_refl) as (Q1 & Q2 & _). repeat constructor; auto;
        intros k' Hk2; apply psz_inj in Hk2; subst; auto. }
    cbn [snd]. destruct (Nat.eqb_spec (psz k) 1) as [Hk1|Hk1].
    + destruct rest as [|back' [|p rest]].
      * simpl in HC. apply wp_ret. split; auto. intros HZ'. destruct (HN HZ') as (_ & H & _). replace f with (c - 1) by lia. auto.
      * destruct back' as [[b' e'] n']. destruct HC as (-> & (k' & Hk' & -> & ->) & HC). cbn [snd]. pose proof (psz_lt k').
        simpl in HC. subst b'.
        assert (Z -> Forall (popp m2) [(f, f + psz k', psz k')] /\ sorted_range lt (c - 1 - 1) l m2 /\ parted f (c - 1 - 1) l m2) as HN2.
        { intros HZ'. destruct (HN HZ') as (F1 & F2 & F3). inversion F1; subst. split; auto.
          rdv Hf2 (c - 1 - 1) z Hz. apply (extract f (c - 1) l m2 z); auto; try lia.
          inversion H3 as [|? ? Hp _]. subst. specialize (Hp k' eq_refl). cbn [fst] in Hp. replace (c - 1) with (f + psz k') in * by lia.
          apply (pop_all _ _ _ _ Hp Hz). }
        destruct (Nat.eqb_spec (psz k') 1) as [Hk1'|Hk1'].
        -- apply wp_ret. split; auto. intros HZ'. destruct (HN2 HZ') as (_ & H' & _). replace f with (c - 1 - 1) by lia. auto.
        -- assert (f < c - 1 - 1) as Hlt3.
           { destruct k' as [|[|k']]; [rewrite psz_0 in *; lia|rewrite psz_1 in *; lia|]. pose proof (psz_S (S k')). pose proof (psz_S k'). lia. }
           apply wp_ret. exists (c - 1 - 1 - f). split; [lia|]. exists (c - 1 - 1).
           destruct (HSPLIT f k' (c - 1) [] m2 Hk' Hk1') as [S1 S2]; [lia|reflexivity|].
           replace (f + psz k') with (c - 1) in * by lia. cj; auto; try lia.
           intros HZ'. destruct (HN2 HZ') as (F1 & F2 & F3). cj; auto.
      * change (1 <? length (back' :: p :: rest)) with true. cbv iota. apply wp_ret. exists (c - 1 - f).
        pose proof (chain_le _ _ _ HC) as [_ HL]. specialize (HL ltac:(discriminate)). split; [lia|]. exists (c - 1). replace (c - 1) with b by lia.
        cj; auto; try lia. intros HZ'. destruct (HN HZ') as (F1 & F2 & F3). replace (c - 1) with b in * by lia. inversion F1; subst. cj; auto.
    + replace (1 <? length (split_back (b, c, psz k) rest)) with true by reflexivity. apply wp_ret.
      destruct (HSPLIT b k c rest m2 Hk Hk1 eq_refl HC) as [S1 S2].
      exists (c - 1 - f). split; [lia|]. exists (c - 1). cj; auto; try lia.
      intros HZ'. destruct (HN HZ') as (F1 & F2 & F3). cj; auto.
Qed.

Lemma poplar_sorter_wp : sorts_index comp proj (poplar_sorter comp proj).
Proof.
  intros f l m Hfl Hf. unfold poplar_sorter, poplar_sort. destruct (Nat.ltb_spec (l - f) 2) as [Hn|Hn].
  { apply wp_ret. split; [apply pm_refl|]. intros _ i j x y. lia. }
  assert (exists k, 0 < k /\ hyperfloor (l - f + 1) - 1 = psz k) as (k & Hk & ->).
  { unfold hyperfloor. destruct (Nat.eqb_spec (l - f + 1) 0); [lia|]. exists (Nat.log2 (l - f + 1)). split; [|reflexivity].
    apply Nat.log2_pos. lia. }
  apply wp_bind. eapply wp_mono; [apply make_poplars_wp; auto|]. intros ps m1 (HP1 & HC & HF). cbv beta.
  eapply wp_mono; [apply sort_poplars_wp with (f := f) (l := l); auto; try lia; eapply pm_full; eauto|].
  intros u m2 [HP2 HS]. split; auto. eapply pm_trans; eauto.
Qed.
End Poplar.
