(** Adaptive quickselect. *)
From Coq Require Import List Arith Lia Permutation Bool.
From Verif Require Import Spec.Order Lang.Mem Spec.Sorts Proofs.Wp Proofs.OrderLib Model.Basic Proofs.Basic
  Model.Rotate Model.Pdq Model.Quick Model.Select Proofs.IndexLib Proofs.PdqPart Proofs.Pdq Proofs.Quick.
Import ListNotations.

Section Select.
Context {A T : Type} (comp : T -> T -> bool) (proj : A -> T).
Notation lt := (by_proj comp proj).
(** The selection needs an asymmetric comparison to be safe; what it selects is only known for a strict weak order. *)
Hypothesis HA : forall x y, lt x y = true -> lt y x = false.
Lemma irr : forall x, lt x x = false.
Proof. intros x. destruct (lt x x) eqn:E; auto. pose proof (HA x x E). congruence. Qed.

Lemma wp_assert : forall b (Q : unit -> mem A -> Prop) m, b = true -> Q tt m -> wp (assert b) Q m.
Proof. intros b Q m -> HQ. apply wp_ret. auto. Qed.

(** Ranges at most, at least [z]. *)
Notation LE z := (range_all (fun x => strict_weak_order lt -> lt z x = false)).
Notation GE z := (range_all (fun x => strict_weak_order lt -> lt x z = false)).

(** Finish [range_all] goals: some hypothesis covers the cell, or the cell's value is known. *)
Ltac cover Hx :=
  first
  [ solve [exfalso; lia]
  | match type of Hx with nth_error ?m ?k = Some (Val ?x) =>
      match goal with R : range_all _ _ _ m |- _ => solve [apply (R k x); [lia|exact Hx]] end end
  | match type of Hx with nth_error ?m ?k = Some (Val ?x) =>
      match goal with E : nth_error m ?k' = Some (Val ?y) |- _ =>
        replace k with k' in Hx by lia; assert (x = y) by congruence; subst x;
        solve [auto | intros _; apply irr | intros _; apply HA; auto] end end ].
Ltac rng :=
  let k := fresh "k" in let x := fresh "x" in let Hk := fresh "Hk" in let Hx := fresh "Hx" in
  intros k x Hk Hx;
  match goal with
  | S : swapped ?i ?j ?m ?m', _ : nth_error ?m' k = _ |- _ =>
      rewrite S in Hx; destruct (tr_cases i j k) as [[? Ht]|[(? & ? & Ht)|(? & ? & Ht)]]; rewrite Ht in Hx; clear Ht;
      cover Hx
  | _ => cover Hx
  end.
Ltac rngs k0 := 
  let k := fresh "k" in let x := fresh "x" in let Hk := fresh "Hk" in let Hx := fresh "Hx" in
  intros k x Hk Hx; destruct (Nat.lt_ge_cases k k0); [cover Hx|]; destruct (Nat.eq_dec k k0); [|cover Hx]; subst; cover Hx.

Definition parts_at z f p l m : Prop :=
  f <= p < l /\ nth_error m p = Some (Val z) /\ LE z f p m /\ GE z (S p) l m.

Lemma expand_left_wp : forall z r lo pv m, 0 < lo <= pv -> full r (r + pv + 1) m -> nth_error m (r + pv) = Some (Val z) ->
  LE z (r + lo) (r + pv) m ->
  wp (expand_partition_left comp proj r lo pv) (fun p m' =>
    pm r (r + pv + 1) m m' /\ parts_at z r (r + p) (r + pv + 1) m') m.
Proof.
  intros z r lo pv m Hlo Hf Hz R0. unfold expand_partition_left.
  apply wp_bind, wp_assert.
  { apply andb_true_iff. split; [apply Nat.ltb_lt|apply Nat.leb_le]; lia. }
  apply wp_bind.
  (* the final swap *)
  assert (forall p m', pm r (r + pv + 1) m m' -> nth_error m' (r + pv) = Some (Val z) -> p <= pv ->
    LE z r (r + p) m' -> GE z (r + p) (r + pv) m' ->
    forall Q : unit -> mem A -> Prop, (forall m2, pm r (r + pv + 1) m m2 /\ parts_at z r (r + p) (r + pv + 1) m2 -> Q tt m2) ->
    wp (swap (r + pv) (r + p)) Q m') as FIN.
  { clear R0. intros p m' HP Ez Hp R1 R2 Q HQ. assert (full r (r + pv + 1) m') as Hf' by (eapply pm_full; eauto).
    eapply wp_swap_pm with (f := r) (l := r + pv + 1); eauto; try lia. intros m2 HP2 HS2. apply HQ. split.
    - eapply pm_trans; eauto.
    - split; [lia|]. split. { rewrite HS2, tr_r. auto. } split.
      + rng.
      + rng. }
  apply wp_mono with (Q := fun r' m' => match r' with
    | inr p => pm r (r + pv + 1) m m' /\ parts_at z r (r + p) (r + pv + 1) m'
    | inl (lf, p) => pm r (r + pv + 1) m m' /\ nth_error m' (r + pv) = Some (Val z) /\ lf <= p <= pv /\ p = lo /\
      LE z r (r + lf) m' /\ GE z (r + p) (r + pv) m' end).
  { apply wp_loop' with (I := fun '(lf, p) m' => pm r (r + pv + 1) m m' /\ nth_error m' (r + pv) = Some (Val z) /\
      lf <= lo /\ lo <= p <= pv /\ LE z r (r + lf) m' /\ LE z (r + lo) (r + p) m' /\ GE z (r + p) (r + pv) m')
      (mu := fun '(lf, p) => lo - lf).
    - cj; auto; try lia; try apply pm_refl; rng.
    - lia.
    - intros [lf p] m' (HP & Ez & Hlf & Hp & R1 & R2 & R3).
      assert (full r (r + pv + 1) m') as Hf' by (eapply pm_full; eauto).
      destruct (Nat.ltb_spec lo p).
      + destruct (Nat.eqb_spec lf lo) as [->|Hne].
        * apply wp_bind. apply FIN; [auto|auto|lia|rngs (r + lo)|auto|intros m2 Hm2; apply wp_ret; auto].
        * apply wp_bind. rdv Hf' (r + lf) y Hy. eapply wp_less_at; eauto. destruct (lt z y) eqn:E.
          -- apply wp_bind. eapply wp_swap_pm with (f := r) (l := r + pv + 1); eauto; try lia. intros m2 HP2 HS2.
             apply wp_ret. cj; try lia.
             ++ eapply pm_trans; eauto.
             ++ rewrite HS2, tr_o by lia. auto.
             ++ rng.
             ++ rng.
             ++ rng.
          -- apply wp_ret. cj; auto; try lia. rngs (r + lf).
      + apply wp_ret. cj; auto; try lia. }
  intros [[lf p]|p] m1 H1; [|apply wp_ret; auto].
  destruct H1 as (HP1 & Ez1 & Hlf & -> & R1 & R2).
  apply wp_bind.
  apply wp_mono with (Q := fun r' m' => match r' with
    | inr p => pm r (r + pv + 1) m m' /\ parts_at z r (r + p) (r + pv + 1) m'
    | inl p => pm r (r + pv + 1) m m' /\ nth_error m' (r + pv) = Some (Val z) /\ p <= pv /\
      LE z r (r + p) m' /\ GE z (r + p) (r + pv) m' end).
  { apply wp_loop' with (I := fun '(lf, p) m' => pm r (r + pv + 1) m m' /\ nth_error m' (r + pv) = Some (Val z) /\
      lf <= p /\ p <= pv /\ LE z r (r + lf) m' /\ GE z (r + p) (r + pv) m')
      (mu := fun '(lf, p) => p - lf).
    - cj; auto; try lia; apply Hlf.
    - lia.
    - clear dependent m1. clear Hlf. clear lf. intros [lf p] m1 (HP1 & Ez1 & Hlf & Hp & R1 & R2).
      assert (full r (r + pv + 1) m1) as Hf1 by (eapply pm_full; eauto).
      destruct (Nat.eqb_spec lf p) as [->|Hne]. { apply wp_ret. cj; auto. }
      apply wp_bind. rdv Hf1 (r + lf) y Hy. eapply wp_less_at; eauto. destruct (lt z y) eqn:E.
      + apply wp_bind.
        apply wp_loop' with (I := fun q m' => m' = m1 /\ lf <= q <= p /\ GE z (r + q) (r + pv) m1) (mu := fun q => q - lf).
        * cj; auto; lia.
        * lia.
        * intros q m' (-> & Hq & R3). destruct (Nat.eqb_spec lf q) as [->|Hne2].
          -- apply wp_bind. apply FIN; [auto|auto|lia|auto|auto|intros m2 Hm2; apply wp_ret, wp_ret; auto].
          -- apply wp_bind. destruct (Nat.eqb_spec q 0); [lia|]. apply wp_ret. apply wp_bind. rdv Hf1 (r + (q - 1)) w Ew. eapply wp_less_at; eauto. destruct (lt w z) eqn:E2.
             ++ apply wp_bind. eapply wp_swap_pm with (f := r) (l := r + pv + 1); eauto; try lia. intros m2 HP2 HS2.
                apply wp_ret, wp_ret.
                assert (lf <> q - 1) as Hne3. { intros Hq1. rewrite <- Hq1 in Ew. assert (y = w) by congruence. subst w.
                  apply HA in E. congruence. }
                cj; try lia.
                ** eapply pm_trans; eauto.
                ** rewrite HS2, tr_o by lia. auto.
                ** rng.
                ** rng.
             ++ apply wp_ret. cj; auto; try lia. rngs (r + (q - 1)).
      + apply wp_ret. cj; auto; try lia. rngs (r + lf). }
  intros [p|p] m2 H2; [|apply wp_ret; auto].
  destruct H2 as (HP2 & Ez2 & Hp2 & R3 & R4). apply wp_bind. apply FIN; [auto|auto|lia|auto|auto|intros m3 H3; apply wp_ret; auto].
Qed.

Lemma expand_right_wp : forall z r hi rite m, hi <= rite -> full r (r + rite + 1) m -> nth_error m r = Some (Val z) ->
  GE z (r + 1) (r + hi + 1) m ->
  wp (expand_partition_right comp proj r hi rite) (fun p m' =>
    pm r (r + rite + 1) m m' /\ parts_at z r (r + p) (r + rite + 1) m') m.
Proof.
  intros z r hi ri m Hhi Hf Hz R0. unfold expand_partition_right.
  apply wp_bind, wp_assert; [reflexivity|]. apply wp_bind, wp_assert; [now apply Nat.leb_le|].
  assert (forall p m', pm r (r + ri + 1) m m' -> nth_error m' r = Some (Val z) -> p <= ri ->
    LE z (r + 1) (r + p + 1) m' -> GE z (r + p + 1) (r + ri + 1) m' ->
    forall Q : unit -> mem A -> Prop, (forall m2, pm r (r + ri + 1) m m2 /\ parts_at z r (r + p) (r + ri + 1) m2 -> Q tt m2) ->
    wp (swap r (r + p)) Q m') as FIN.
  { clear R0. intros p m' HP Ez Hp R1 R2 Q HQ. assert (full r (r + ri + 1) m') as Hf' by (eapply pm_full; eauto).
    eapply wp_swap_pm with (f := r) (l := r + ri + 1); eauto; try lia. intros m2 HP2 HS2. apply HQ. split.
    - eapply pm_trans; eauto.
    - split; [lia|]. split. { rewrite HS2, tr_r. auto. } split.
      + rng.
      + rng. }
  apply wp_bind.
  apply wp_mono with (Q := fun r' m' => match r' with
    | inr p => pm r (r + ri + 1) m m' /\ parts_at z r (r + p) (r + ri + 1) m'
    | inl (p, k) => pm r (r + ri + 1) m m' /\ nth_error m' r = Some (Val z) /\ p <= k <= ri /\
      LE z (r + 1) (r + p + 1) m' /\ GE z (r + k + 1) (r + ri + 1) m' end).
  { apply wp_loop' with (I := fun '(p, k) m' => pm r (r + ri + 1) m m' /\ nth_error m' r = Some (Val z) /\
      p <= hi /\ hi <= k <= ri /\ LE z (r + 1) (r + p + 1) m' /\ GE z (r + p + 1) (r + hi + 1) m' /\ GE z (r + k + 1) (r + ri + 1) m')
      (mu := fun '(p, k) => k).
    - cj; auto; try lia; try apply pm_refl; rng.
    - lia.
    - intros [p k] m' (HP & Ez & Hp & Hk & R1 & R2 & R3).
      assert (full r (r + ri + 1) m') as Hf' by (eapply pm_full; eauto).
      destruct (Nat.ltb_spec p hi).
      + destruct (Nat.eqb_spec k hi) as [->|Hne].
        * apply wp_bind. apply FIN; [auto|auto|lia|auto|rngs (r + hi)|intros m2 Hm2; apply wp_ret; auto].
        * apply wp_bind. rdv Hf' (r + k) y Hy. eapply wp_less_at; eauto. destruct (lt y z) eqn:E.
          -- apply wp_bind. eapply wp_swap_pm with (f := r) (l := r + ri + 1); eauto; try lia. intros m2 HP2 HS2.
             apply wp_ret. cj; try lia.
             ++ eapply pm_trans; eauto.
             ++ rewrite HS2, tr_o by lia. auto.
             ++ rng.
             ++ rng.
             ++ rng.
          -- apply wp_ret. cj; auto; try lia. rngs (r + k).
      + apply wp_ret. cj; auto; try lia. }
  intros [[p k]|p] m1 H1; [|apply wp_ret; auto].
  destruct H1 as (HP1 & Ez1 & Hk & R1 & R2).
  apply wp_bind.
  apply wp_mono with (Q := fun p m' => pm r (r + ri + 1) m m' /\ nth_error m' r = Some (Val z) /\ p <= ri /\
      LE z (r + 1) (r + p + 1) m' /\ GE z (r + p + 1) (r + ri + 1) m').
  { apply wp_loop' with (I := fun '(p, k) m' => pm r (r + ri + 1) m m' /\ nth_error m' r = Some (Val z) /\
      p <= S k /\ k <= ri /\ p <= ri /\ LE z (r + 1) (r + p + 1) m' /\ GE z (r + Nat.max p k + 1) (r + ri + 1) m')
      (mu := fun '(p, k) => k).
    - cj; auto; try lia. rng.
    - lia.
    - clear dependent m1. clear Hk. clear p k. intros [p k] m1 (HP1 & Ez1 & Hp & Hk & Hpr & R1 & R2).
      assert (full r (r + ri + 1) m1) as Hf1 by (eapply pm_full; eauto).
      destruct (Nat.ltb_spec p k) as [Hlt|Hge].
      2:{ apply wp_ret. cj; auto. rng. }
      apply wp_bind. rdv Hf1 (r + k) y Hy. eapply wp_less_at; eauto. destruct (lt y z) eqn:E.
      + apply wp_bind.
        apply wp_loop' with (I := fun q m' => m' = m1 /\ p <= q <= k /\ LE z (r + 1) (r + q + 1) m1) (mu := fun q => k - q).
        * cj; auto; lia.
        * lia.
        * intros q m' (-> & Hq & R4). destruct (Nat.ltb_spec q k) as [Hq2|Hq2].
          -- apply wp_bind. rdv Hf1 (r + S q) w Ew. eapply wp_less_at; eauto. destruct (lt z w) eqn:E2.
             ++ apply wp_bind. eapply wp_swap_pm with (f := r) (l := r + ri + 1); eauto; try lia. intros m2 HP2 HS2.
                apply wp_ret, wp_ret.
                assert (S q <> k) as Hne3. { intros Hq1. rewrite Hq1 in Ew. assert (y = w) by congruence. subst w.
                  apply HA in E. congruence. }
                cj; try lia.
                ** eapply pm_trans; eauto.
                ** rewrite HS2, tr_o by lia. auto.
                ** rng.
                ** rng.
             ++ apply wp_ret. cj; auto; try lia. rngs (r + S q).
          -- apply wp_ret, wp_ret. replace q with k in * by lia. cj; auto; try lia.
             rng.
      + apply wp_ret. cj; auto; try lia. rngs (r + k). }
  intros p' m2 (HP2 & Ez2 & Hp2 & R3 & R4). apply wp_bind. apply FIN; [auto|auto|lia|auto|auto|intros m3 H3; apply wp_ret; auto].
Qed.

Lemma expand_wp : forall z r lo pv hi len m, lo <= pv -> pv < hi -> hi <= len -> full r (r + len) m ->
  nth_error m (r + pv) = Some (Val z) -> LE z (r + lo) (r + pv) m -> GE z (r + pv + 1) (r + hi) m ->
  wp (expand_partition comp proj r lo pv hi len) (fun p m' =>
    pm r (r + len) m m' /\ parts_at z r (r + p) (r + len) m') m.
Proof.
  intros z r lo pv hi len m Hlo Hpv Hhi Hf Hz R1 R2. unfold expand_partition.
  apply wp_bind, wp_assert.
  { rewrite !andb_true_iff. repeat split; [apply Nat.leb_le|apply Nat.ltb_lt|apply Nat.leb_le]; lia. }
  apply wp_loop' with (I := fun '(lf, n) m' => pm r (r + len) m m' /\ nth_error m' (r + pv) = Some (Val z) /\
      lf <= lo /\ hi - 1 <= n <= len - 1 /\ LE z r (r + lf) m' /\ LE z (r + lo) (r + pv) m' /\ GE z (r + pv + 1) (r + hi) m' /\
      GE z (r + n + 1) (r + len) m') (mu := fun '(lf, n) => lo - lf).
  - cj; auto; try lia; try apply pm_refl; rng.
  - lia.
  - intros [lf n] m1 (HP1 & Ez & Hlf & Hn & R3 & R4 & R5 & R6).
    assert (full r (r + len) m1) as Hf1 by (eapply pm_full; eauto).
    clear R1 R2. apply wp_bind.
    apply wp_mono with (Q := fun s m' => match s with
      | inr p => pm r (r + len) m m' /\ parts_at z r (r + p) (r + len) m'
      | inl lf' => m' = m1 /\ lf <= lf' < lo /\ LE z r (r + lf') m1 /\
          exists y, nth_error m1 (r + lf') = Some (Val y) /\ lt z y = true end).
    { apply wp_loop' with (I := fun i m' => m' = m1 /\ lf <= i <= lo /\ LE z r (r + i) m1) (mu := fun i => lo - i).
      - cj; auto; lia.
      - lia.
      - intros i m' (-> & Hi & R7). destruct (Nat.eqb_spec i lo) as [->|Hne].
        + apply wp_bind. eapply wp_mono.
          { apply (expand_right_wp z); auto; try lia.
            - eapply full_sub; eauto; lia.
            - rng. }
          intros p m2 (HP2 & (Hp2 & Ep & R8 & R9)). apply wp_ret.
          replace (r + pv + p) with (r + (pv + p)) in * by lia.
          assert (length m2 = length m1) as HL by (eapply pm_length; eauto).
          split. { eapply pm_trans; [exact HP1|]. eapply pm_widen; eauto; lia. }
          split; [lia|]. split; auto. split.
          * intros k x Hk Hx. destruct (Nat.lt_ge_cases k (r + pv)); [|cover Hx].
            rewrite (pm_out _ _ _ _ _ HP2) in Hx by lia.
            destruct (Nat.lt_ge_cases k (r + lo)); cover Hx.
          * intros k x Hk Hx. destruct (Nat.lt_ge_cases k (r + n + 1)); [cover Hx|].
            rewrite (pm_out _ _ _ _ _ HP2) in Hx by lia. cover Hx.
        + apply wp_bind. rdv Hf1 (r + i) y Hy. eapply wp_less_at; eauto. destruct (lt z y) eqn:E; apply wp_ret.
          * cj; auto; try lia. eauto.
          * cj; auto; try lia. rngs (r + i). }
    intros [lf'|p] m' HS'; [|apply wp_ret; auto].
    destruct HS' as (-> & Hlf' & R7 & y & Hy & Ey). apply wp_bind.
    apply wp_mono with (Q := fun s m' => match s with
      | inr p => pm r (r + len) m m' /\ parts_at z r (r + p) (r + len) m'
      | inl n' => m' = m1 /\ hi - 1 < n' <= n /\ GE z (r + n' + 1) (r + len) m1 /\
          exists w, nth_error m1 (r + n') = Some (Val w) /\ lt z w = false end).
    { apply wp_loop' with (I := fun i m' => m' = m1 /\ hi - 1 <= i <= n /\ GE z (r + i + 1) (r + len) m1) (mu := fun i => i).
      - cj; auto; lia.
      - lia.
      - intros i m' (-> & Hi & R8). destruct (Nat.eqb_spec i (hi - 1)) as [->|Hne].
        + apply wp_bind. eapply wp_mono.
          { apply (expand_left_wp z (r + lf') (lo - lf') (pv - lf')); auto; try lia.
            - eapply full_sub; eauto; lia.
            - replace (r + lf' + (pv - lf')) with (r + pv) by lia. auto.
            - rng. }
          intros p m2 (HP2 & (Hp2 & Ep & R9 & R10)). apply wp_ret.
          replace (r + lf' + p) with (r + (lf' + p)) in * by lia.
          assert (length m2 = length m1) as HL by (eapply pm_length; eauto).
          split. { eapply pm_trans; [exact HP1|]. eapply pm_widen; eauto; lia. }
          split; [lia|]. split; auto. split.
          * intros k x Hk Hx. destruct (Nat.lt_ge_cases k (r + lf')); [|cover Hx].
            rewrite (pm_out _ _ _ _ _ HP2) in Hx by lia. cover Hx.
          * intros k x Hk Hx. destruct (Nat.lt_ge_cases k (r + pv + 1)); [cover Hx|].
            rewrite (pm_out _ _ _ _ _ HP2) in Hx by lia.
            destruct (Nat.lt_ge_cases k (r + hi)); cover Hx.
        + apply wp_bind. rdv Hf1 (r + i) w Hw. eapply wp_less_at; eauto. destruct (lt z w) eqn:E; simpl negb; cbv iota; apply wp_ret.
          * cj; auto; try lia. intros k x Hk Hx. destruct (Nat.eq_dec k (r + i)) as [->|]; [|cover Hx].
            assert (x = w) by congruence. subst x. intros _. apply HA; auto.
          * cj; auto; try lia. eauto. }
    intros [n'|p] m' HS'; [|apply wp_ret; auto].
    destruct HS' as (-> & Hn' & R8 & w & Hw & Ew).
    apply wp_bind. eapply wp_swap_pm with (f := r) (l := r + len); eauto; try lia. intros m2 HP2 HS2. apply wp_ret.
    cj; try lia.
    + eapply pm_trans; eauto.
    + rewrite HS2, tr_o by lia. auto.
    + rng.
    + rng.
    + rng.
    + rng.
Qed.

Lemma pivot_partition_wp : forall r k len m, k < len -> full r (r + len) m ->
  wp (pivot_partition comp proj r k len) (fun p m' => pm r (r + len) m m' /\ exists z, parts_at z r p (r + len) m') m.
Proof.
  intros r k len m Hk Hf. unfold pivot_partition.
  apply wp_bind, wp_assert; [now apply Nat.ltb_lt|]. apply wp_bind.
  eapply wp_swap_pm with (f := r) (l := r + len); eauto; try lia. intros m1 HP1 _.
  assert (full r (r + len) m1) as Hf1 by (eapply pm_full; eauto).
  rdv Hf1 r z Hz. apply wp_bind. eapply wp_mono.
  { apply (partition_bidirectional_wp _ _ r z (pred2_reads comp proj r z)); auto; [lia|].
    right. right. split; auto. rewrite irr. reflexivity. }
  intros pp m2 ((HP2 & Hpp & R1 & R2) & Hz2). cbv beta.
  assert (full r (r + len) m2) as Hf2 by (eapply pm_full; eauto).
  assert (r < pp) as Hpp1.
  { destruct (Nat.eq_dec pp r) as [->|]; [|lia]. specialize (R2 r z ltac:(lia) Hz2). cbv beta in R2.
    rewrite irr in R2. discriminate. }
  destruct (Nat.eqb_spec pp 0); [lia|]. apply wp_bind, wp_ret. apply wp_bind.
  assert (LE z r pp m2) as R1'.
  { intros j x Hj Hx _. apply negb_true_iff. apply (R1 j); auto. }
  assert (GE z pp (r + len) m2) as R2'.
  { intros j x Hj Hx _. apply HA. apply negb_false_iff. apply (R2 j); auto. }
  clear R1 R2.
  eapply wp_swap_pm with (f := r) (l := r + len); eauto; try lia. intros m3 HP3 HS3. apply wp_ret.
  split. { eapply pm_trans; [exact HP1|]. eapply pm_trans; eauto. }
  exists z. split; [lia|]. split. { rewrite HS3, tr_r. auto. } split; rng.
Qed.

Lemma median_index_wp : forall f l r a b c m, full f l m -> f <= r + a < l -> f <= r + b < l -> f <= r + c < l ->
  wp (median_index comp proj r a b c) (fun k m' => m' = m /\ (k = a \/ k = b \/ k = c)) m.
Proof.
  intros f l r a b c m Hf Ha Hb Hc. unfold median_index.
  apply wp_bind. apply (less_at_any comp proj f l); auto. intros [|]; cbv beta iota.
  - apply wp_bind. apply (less_at_any comp proj f l); auto. intros [|]; [apply wp_ret; auto|].
    apply wp_bind. apply (less_at_any comp proj f l); auto. intros [|]; apply wp_ret; auto.
  - apply wp_bind. apply (less_at_any comp proj f l); auto. intros [|]; [apply wp_ret; auto|].
    apply wp_bind. apply (less_at_any comp proj f l); auto. intros [|]; apply wp_ret; auto.
Qed.

Lemma ninther_wp : forall f l r i1 i2 i3 i4 i5 i6 i7 i8 i9 m, full f l m -> f <= r + i1 < l -> f <= r + i2 < l -> f <= r + i3 < l ->
  f <= r + i4 < l -> f <= r + i5 < l -> f <= r + i6 < l -> f <= r + i7 < l -> f <= r + i8 < l -> f <= r + i9 < l ->
  wp (ninther comp proj r i1 i2 i3 i4 i5 i6 i7 i8 i9) (fun _ m' => pm f l m m') m.
Proof.
  intros f l r i1 i2 i3 i4 i5 i6 i7 i8 i9 m Hf H1 H2 H3 H4 H5 H6 H7 H8 H9. unfold ninther.
  apply wp_bind. eapply wp_mono; [apply (median_index_wp f l); auto|]. intros j2 m' [-> Hj2].
  apply wp_bind. eapply wp_mono; [apply (median_index_wp f l); auto|]. intros j8 m' [-> Hj8].
  assert (f <= r + j2 < l) as K2 by (destruct Hj2 as [->|[->| ->]]; auto).
  assert (f <= r + j8 < l) as K8 by (destruct Hj8 as [->|[->| ->]]; auto). clear Hj2 Hj8 H1 H2 H3 H7 H8 H9.
  apply wp_bind. apply (less_at_any comp proj f l); auto. intros t.
  assert (exists a b, (if t then (j8, j2) else (j2, j8)) = (a, b) /\ f <= r + a < l /\ f <= r + b < l) as (a & b & E & Ka & Kb).
  { destruct t; eauto. }
  rewrite E. clear E t.
  apply wp_bind. apply (less_at_any comp proj f l); auto. intros t.
  assert (exists c d, (if t then (i6, i4) else (i4, i6)) = (c, d) /\ f <= r + c < l /\ f <= r + d < l) as (c & d & E & Kc & Kd).
  { destruct t; eauto. }
  rewrite E. clear E t H4 H6.
  assert (forall c, f <= r + c < l -> wp (let* t := less_at comp proj (r + c) (r + a) in
    let* i4 := (if (t : bool) then ret a else let* t := less_at comp proj (r + b) (r + c) in ret (if (t : bool) then b else c)) in
    swap (r + i5) (r + i4)) (fun _ m' => pm f l m m') m) as LAST.
  { intros e He. apply wp_bind. apply (less_at_any comp proj f l); auto. intros [|].
    - apply wp_bind, wp_ret. eapply swap_any; eauto.
    - apply wp_bind. apply wp_bind. apply (less_at_any comp proj f l); auto. intros [|]; apply wp_ret; eapply swap_any; eauto. }
  apply wp_bind. apply (less_at_any comp proj f l); auto. intros [|]; [apply LAST; auto|].
  apply wp_bind. apply (less_at_any comp proj f l); auto. intros [|]; [apply LAST; auto|].
  apply wp_bind. apply (less_at_any comp proj f l); auto. intros [|]; [eapply swap_any; eauto|].
  apply wp_bind. apply (less_at_any comp proj f l); auto. intros [|]; [eapply swap_any; eauto|].
  apply wp_ret, pm_refl.
Qed.

Definition selects_at (bound : nat) (select : nat -> nat -> nat -> M A unit) : Prop :=
  forall r n len m, full r (r + len) m -> n < len -> len < bound ->
  wp (select r n len) (fun _ m' => pm r (r + len) m m' /\ exists z, parts_at z r (r + n) (r + len) m') m.

(** The extremum loop shared by minima and maxima; [P] is the order in which the indices are compared. *)
Lemma extremum_wp : forall (test : nat -> nat -> M A bool) f l r cnt j m, full f l m -> 0 < cnt -> f <= r + j -> r + j + cnt <= l ->
  (forall a b (Q : bool -> mem A -> Prop), f <= r + a < l -> f <= r + b < l -> (forall c, Q c m) -> wp (test a b) Q m) ->
  wp (loop (S cnt) (fun '(j', e) =>
        let j' := S j' in
        if j' <? j + cnt then
          let* c := test j' e in
          ret (inl (j', if (c : bool) then j' else e))
        else ret (inr (j', e))) (j, j)) (fun '(j', e) m' => m' = m /\ j' = j + cnt /\ f <= r + e < l) m.
Proof.
  intros test f l r cnt j m Hf Hc Hj Hl Ht.
  apply wp_loop' with (I := fun '(j', e) m' => m' = m /\ j <= j' < j + cnt /\ j <= e < j + cnt) (mu := fun '(j', e) => j + cnt - j').
  - cj; auto; lia.
  - lia.
  - intros [j' e] m' (-> & Hj' & He). cbv zeta. destruct (Nat.ltb_spec (S j') (j + cnt)).
    + apply wp_bind. apply Ht; try lia. intros c. apply wp_ret. destruct c; cj; auto; lia.
    + apply wp_ret. cj; auto; lia.
Qed.

Lemma median_of_minima_wp : forall select r n len m, selects_at len select -> full r (r + len) m ->
  0 < n -> n <= len / 6 ->
  wp (median_of_minima comp proj select r n len) (fun p m' => pm r (r + len) m m' /\ exists z, parts_at z r (r + p) (r + len) m') m.
Proof.
  intros select r n len m HS Hf Hn H6. unfold median_of_minima.
  assert (6 * n <= len) as Hlen. { pose proof (Nat.mul_div_le len 6). lia. }
  set (k := (len - n * 2) / (n * 2)).
  assert (2 <= k) as Hk. { apply Nat.div_le_lower_bound; lia. }
  assert (n * 2 * k <= len - n * 2) as Hk2. { apply Nat.mul_div_le. lia. }
  clearbody k.
  apply wp_bind, wp_assert; [apply Nat.leb_le; lia|]. apply wp_bind, wp_assert; [now apply Nat.leb_le|].
  apply wp_bind, wp_assert; [now apply Nat.ltb_lt|]. apply wp_bind, wp_assert; [apply Nat.ltb_lt; lia|].
  apply wp_bind.
  apply wp_mono with (Q := fun _ m' => pm r (r + len) m m').
  { apply wp_loop' with (I := fun '(i, j) m' => pm r (r + len) m m' /\ i <= n * 2 /\ j = n * 2 + i * k) (mu := fun '(i, j) => n * 2 - i).
    - cj; try lia. apply pm_refl.
    - lia.
    - intros [i j] m1 (HP1 & Hi & ->). assert (full r (r + len) m1) as Hf1 by (eapply pm_full; eauto).
      destruct (Nat.ltb_spec i (n * 2)).
      + assert (n * 2 + i * k + k <= len /\ (i + 1 < n * 2 -> n * 2 + i * k + k < len)) as [B1 B2].
        { assert ((i + 1) * k <= n * 2 * k) by (apply Nat.mul_le_mono_r; lia). split; [lia|]. intros Hi2.
          assert ((i + 2) * k <= n * 2 * k) by (apply Nat.mul_le_mono_r; lia). lia. }
        apply wp_bind. eapply wp_mono.
        { apply (extremum_wp (fun a b => less_at comp proj (r + a) (r + b)) r (r + len) r k (n * 2 + i * k) m1); auto; [lia|lia|lia|].
          intros a b Q Ha Hb HQ. apply (less_at_any comp proj r (r + len)); auto. }
        intros [j e] m' (-> & -> & He). cbv beta iota.
        apply wp_bind. apply (less_at_any comp proj r (r + len)); auto; [lia|]. intros c.
        apply wp_bind. apply wp_mono with (Q := fun _ m' => pm r (r + len) m m').
        { destruct c; [|apply wp_ret; auto]. eapply swap_any; eauto; [lia|]. intros m2 HP2 _. eapply pm_trans; eauto. }
        intros u m2 HP2. cbv beta. apply wp_bind, wp_assert.
        { apply orb_true_iff. destruct (Nat.lt_ge_cases (i + 1) (n * 2)).
          - left. apply Nat.ltb_lt. auto.
          - right. apply Nat.eqb_eq. lia. }
        apply wp_ret. cj; auto; lia.
      + apply wp_ret. auto. }
  intros u1 m1 HP1. cbv beta. assert (full r (r + len) m1) as Hf1 by (eapply pm_full; eauto).
  apply wp_bind. eapply wp_mono; [apply HS; try lia; eapply full_sub; eauto; lia|].
  intros u m2 (HP2 & z & Hp2 & Ez & R1 & R2). cbv beta.
  assert (pm r (r + len) m1 m2) as HP2' by (eapply pm_widen; eauto; lia).
  eapply wp_mono; [apply (expand_wp z); auto; try lia|].
  - eapply pm_full; eauto.
  - rng.
  - rng.
  - intros p m' (HP' & HR). split; eauto. eapply pm_trans; [exact HP1|]. eapply pm_trans; eauto.
Qed.

Lemma median_of_maxima_wp : forall select r n len m, selects_at len select -> full r (r + len) m ->
  n < len -> len - n <= n / 5 ->
  wp (median_of_maxima comp proj select r n len) (fun p m' => pm r (r + len) m m' /\ exists z, parts_at z r (r + p) (r + len) m') m.
Proof.
  intros select r n len m HS Hf Hn H5. unfold median_of_maxima.
  assert (5 * (len - n) <= n) as Hlen. { pose proof (Nat.mul_div_le n 5). lia. }
  assert (len - (len - n) * 2 + (len - n) * 2 = len) as Hst by lia.
  set (st := len - (len - n) * 2) in *. set (sub := (len - n) * 2) in *. set (k := st / sub).
  assert (2 <= k) as Hk. { apply Nat.div_le_lower_bound; lia. }
  assert (sub * k <= st) as Hk2. { apply Nat.mul_div_le. lia. }
  clearbody k.
  apply wp_bind, wp_assert; [apply Nat.leb_le; lia|]. apply wp_bind, wp_assert.
  2: assert (sub = (len - n) * 2) as Hsub by reflexivity; clearbody st sub.
  { apply andb_true_iff. split; [now apply Nat.ltb_lt|now apply Nat.leb_le]. }
  apply wp_bind, wp_assert; [apply Nat.ltb_lt; lia|].
  apply wp_bind.
  apply wp_mono with (Q := fun _ m' => pm r (r + len) m m').
  { apply wp_loop' with (I := fun '(i, j) m' => pm r (r + len) m m' /\ st <= i <= len /\ j = st - sub * k + (i - st) * k) (mu := fun '(i, j) => len - i).
    - cj; try lia. apply pm_refl.
    - lia.
    - intros [i j] m1 (HP1 & Hi & ->). assert (full r (r + len) m1) as Hf1 by (eapply pm_full; eauto).
      destruct (Nat.ltb_spec i len).
      + assert ((i - st) * k + k <= sub * k) as B1.
        { assert ((i - st + 1) * k <= sub * k) by (apply Nat.mul_le_mono_r; lia). lia. }
        apply wp_bind. eapply wp_mono.
        { assert (r <= r + (st - sub * k + (i - st) * k)) by apply Nat.le_add_r.
          assert (r + (st - sub * k + (i - st) * k) + k <= r + len) by (clear -B1 Hst Hk2; set (x := (i - st) * k) in *; clearbody x; lia).
          apply (extremum_wp (fun a b => less_at comp proj (r + b) (r + a)) r (r + len) r k (st - sub * k + (i - st) * k) m1); auto; [lia|].
          intros a b Q Ha Hb HQ. apply (less_at_any comp proj r (r + len)); auto. }
        intros [j e] m' (-> & -> & He). cbv beta iota.
        apply wp_bind. apply (less_at_any comp proj r (r + len)); auto; [lia|]. intros c.
        apply wp_bind. apply wp_mono with (Q := fun _ m' => pm r (r + len) m m').
        { destruct c; [|apply wp_ret; auto]. eapply swap_any; eauto; [lia|]. intros m2 HP2 _. eapply pm_trans; eauto. }
        intros u m2 HP2. cbv beta. apply wp_bind, wp_assert.
        { apply orb_true_iff. left. apply negb_true_iff. apply Nat.eqb_neq.
          clear -Hk. set (x := (i - st) * k). clearbody x. lia. }
        apply wp_ret. replace (S i - st) with (S (i - st)) by lia. cj; auto; lia.
      + apply wp_ret. auto. }
  intros u1 m1 HP1. cbv beta. assert (full r (r + len) m1) as Hf1 by (eapply pm_full; eauto).
  apply wp_bind. eapply wp_mono; [apply HS; try lia; eapply full_sub; eauto; lia|].
  intros u m2 (HP2 & z & Hp2 & Ez & R1 & R2). cbv beta.
  assert (pm r (r + len) m1 m2) as HP2' by (eapply pm_widen; eauto; lia).
  replace (r + st + (len - n)) with (r + n) in * by lia.
  eapply wp_mono; [apply (expand_wp z); auto; try lia|].
  - eapply pm_full; eauto.
  - rng.
  - intros p m' (HP' & HR). split; eauto. eapply pm_trans; [exact HP1|]. eapply pm_trans; eauto.
Qed.

Lemma median_of_ninthers_wp : forall select r len m, selects_at len select -> full r (r + len) m -> 16 < len ->
  wp (median_of_ninthers comp proj select r len) (fun p m' => pm r (r + len) m m' /\ exists z, parts_at z r (r + p) (r + len) m') m.
Proof.
  intros select r len m HS Hf Hlen. unfold median_of_ninthers.
  apply wp_bind, wp_assert; [apply Nat.leb_le; lia|].
  set (frac := if len <=? 2 ^ 10 then len / 12 else if (len - 1) / 2 ^ 10 <? 128 then len / 64 else len / 2 ^ 10).
  assert (1 <= frac /\ 12 * frac <= len) as [Hf1 Hf12].
  { assert (forall d, 12 <= d <= len -> 1 <= len / d /\ 12 * (len / d) <= len) as K.
    { intros d Hd. split. { apply Nat.div_le_lower_bound; lia. }
      pose proof (Nat.mul_div_le len d ltac:(lia)).
      assert (12 * (len / d) <= d * (len / d)) by (apply Nat.mul_le_mono_r; lia). lia. }
    unfold frac. change (2 ^ 10) with 1024. destruct (Nat.leb_spec len 1024); [apply K; lia|].
    destruct (_ <? 128); apply K; lia. }
  clearbody frac.
  pose proof (Nat.div_mod frac 2 ltac:(lia)) as D1. pose proof (Nat.mod_upper_bound frac 2 ltac:(lia)) as U1.
  pose proof (Nat.div_mod len 2 ltac:(lia)) as D2. pose proof (Nat.mod_upper_bound len 2 ltac:(lia)) as U2.
  pose proof (Nat.div_mod (len - 9 * frac) 4 ltac:(lia)) as D3. pose proof (Nat.mod_upper_bound (len - 9 * frac) 4 ltac:(lia)) as U3.
  set (pv := frac / 2) in *. set (h := len / 2) in *. set (gap := (len - 9 * frac) / 4) in *.
  clearbody pv h gap.
  assert (pv <= (h - pv) / 2) as A3 by (apply Nat.div_le_lower_bound; lia).
  apply wp_bind, wp_assert; [apply Nat.leb_le; lia|]. apply wp_bind, wp_assert; [apply Nat.leb_le; lia|].
  apply wp_bind, wp_assert; [apply Nat.leb_le; lia|]. clear A3.
  set (lo := h - pv) in *. assert (lo + pv = h) as Hlo by lia. clearbody lo.
  apply wp_bind.
  apply wp_mono with (Q := fun _ m' => pm r (r + len) m m').
  { apply wp_loop' with (I := fun '(i, a, b) m' => pm r (r + len) m m' /\ lo <= i <= lo + frac /\
      a = lo - 4 * frac - gap + 3 * (i - lo) /\ b = lo + frac + gap + 3 * (i - lo)) (mu := fun '(i, a, b) => lo + frac - i).
    - cj; try lia. apply pm_refl.
    - lia.
    - intros [[i a] b] m1 (HP1 & Hi & -> & ->). assert (full r (r + len) m1) as Hfm by (eapply pm_full; eauto).
      destruct (Nat.ltb_spec i (lo + frac)).
      + apply wp_bind. eapply wp_mono; [apply (ninther_wp r (r + len)); auto; lia|].
        intros u m2 HP2. apply wp_ret. cj; try lia. eapply pm_trans; eauto.
      + apply wp_ret. auto. }
  intros u1 m1 HP1. cbv beta. assert (full r (r + len) m1) as Hfm by (eapply pm_full; eauto).
  apply wp_bind. eapply wp_mono; [apply HS; try lia; eapply full_sub; eauto; lia|].
  intros u m2 (HP2 & z & Hp2 & Ez & R1 & R2). cbv beta.
  assert (pm r (r + len) m1 m2) as HP2' by (eapply pm_widen; eauto; lia).
  replace (r + lo + pv) with (r + (lo + pv)) in * by lia.
  eapply wp_mono; [apply (expand_wp z); auto; try lia|].
  - eapply pm_full; eauto.
  - rng.
  - intros p m' (HP' & HR). split; eauto. eapply pm_trans; [exact HP1|]. eapply pm_trans; eauto.
Qed.

Lemma adaptive_quickselect_wp : forall fuel r n len m, full r (r + len) m -> n < len -> len < fuel ->
  wp (adaptive_quickselect comp proj fuel r n len) (fun _ m' =>
    pm r (r + len) m m' /\ exists z, parts_at z r (r + n) (r + len) m') m.
Proof.
  induction fuel as [|fuel IH]; intros r n len m Hf Hn Hfu; [lia|]. cbn [adaptive_quickselect].
  apply wp_bind, wp_assert; [now apply Nat.ltb_lt|].
  destruct (Nat.eqb_spec n 0) as [->|Hn0].
  { apply wp_bind.
    apply wp_mono with (Q := fun p m' => m' = m /\ p < len /\ exists z, nth_error m (r + p) = Some (Val z) /\ GE z r (r + len) m).
    { apply wp_loop' with (I := fun '(i, p) m' => m' = m /\ p < i /\ 1 <= i <= len /\ exists z, nth_error m (r + p) = Some (Val z) /\ GE z r (r + i) m)
        (mu := fun '(i, p) => len - i).
      - rdv Hf r z Hz. cj; auto; try lia. exists z. replace (r + 0) with r by lia. split; auto. rng.
      - lia.
      - intros [i p] m' (-> & Hp & Hi & z & Ez & R). destruct (Nat.ltb_spec i len).
        + apply wp_bind. rdv Hf (r + i) y Hy. eapply wp_less_at; eauto. apply wp_ret. destruct (lt y z) eqn:E.
          * cj; auto; try lia. exists y. split; auto. intros k x Hk Hx. destruct (Nat.eq_dec k (r + i)) as [->|].
            { assert (x = y) by congruence. subst. intros _. apply irr. }
            intros HW. apply (le_trans lt HW) with z. { now apply HA. } apply (R k); auto; lia.
          * cj; auto; try lia. exists z. split; auto. rngs (r + i).
        + apply wp_ret. cj; auto; try lia. exists z. split; auto. replace len with i by lia. auto. }
    intros p m' (-> & Hp & z & Ez & R).
    eapply wp_swap_pm with (f := r) (l := r + len); eauto; try lia. intros m2 HP2 HS2. split; auto.
    exists z. split; [lia|]. replace (r + 0) with r by lia. split. { rewrite HS2, tr_l. auto. }
    split; rng. }
  destruct (Nat.eqb_spec (n + 1) len) as [Hn1|Hn1].
  { apply wp_bind.
    apply wp_mono with (Q := fun p m' => m' = m /\ p < len /\ exists z, nth_error m (r + p) = Some (Val z) /\ LE z r (r + len) m).
    { apply wp_loop' with (I := fun '(i, p) m' => m' = m /\ p < i /\ 1 <= i <= len /\ exists z, nth_error m (r + p) = Some (Val z) /\ LE z r (r + i) m)
        (mu := fun '(i, p) => len - i).
      - rdv Hf r z Hz. cj; auto; try lia. exists z. replace (r + 0) with r by lia. split; auto. rng.
      - lia.
      - intros [i p] m' (-> & Hp & Hi & z & Ez & R). destruct (Nat.ltb_spec i len).
        + apply wp_bind. rdv Hf (r + i) y Hy. eapply wp_less_at; eauto. apply wp_ret. destruct (lt z y) eqn:E.
          * cj; auto; try lia. exists y. split; auto. intros k x Hk Hx. destruct (Nat.eq_dec k (r + i)) as [->|].
            { assert (x = y) by congruence. subst. intros _. apply irr. }
            intros HW. apply (le_trans lt HW) with z. { apply (R k); auto; lia. } now apply HA.
          * cj; auto; try lia. exists z. split; auto. rngs (r + i).
        + apply wp_ret. cj; auto; try lia. exists z. split; auto. replace len with i by lia. auto. }
    intros p m' (-> & Hp & z & Ez & R).
    eapply wp_swap_pm with (f := r) (l := r + len); eauto; try lia. intros m2 HP2 HS2. split; auto.
    exists z. split; [lia|]. replace (r + n) with (r + (len - 1)) by lia. split. { rewrite HS2, tr_r. auto. }
    split; rng. }
  apply wp_bind.
  apply wp_mono with (Q := fun p m' => pm r (r + len) m m' /\ exists z, parts_at z r (r + p) (r + len) m').
  { assert (selects_at len (adaptive_quickselect comp proj fuel)) as HSel.
    { intros r' n' len' m' Hf' Hn' Hl'. apply IH; auto. lia. }
    destruct (Nat.leb_spec len 16).
    - apply wp_bind. eapply wp_mono; [apply pivot_partition_wp; auto|]. intros p m' (HP & z & Hp & HR). apply wp_ret.
      split; auto. exists z. replace (r + (p - r)) with p by lia. split; auto.
    - destruct (Nat.leb_spec n (len / 6)); [apply median_of_minima_wp; auto; lia|].
      destruct (Nat.leb_spec (len - n) (n / 5)); [apply median_of_maxima_wp; auto|].
      apply median_of_ninthers_wp; auto. }
  intros p m1 (HP1 & z & Hp & Ez & R1 & R2). cbv beta.
  assert (full r (r + len) m1) as Hf1 by (eapply pm_full; eauto).
  destruct (Nat.eqb_spec p n) as [->|Hpn]. { apply wp_ret. split; auto. exists z. split; auto. }
  destruct (Nat.ltb_spec n p) as [Hlt|Hge].
  - eapply wp_mono; [apply IH; try lia; eapply full_sub; eauto; lia|].
    intros u m2 (HP2 & y & Hy & Ey & R3 & R4). split. { eapply pm_trans; eauto. eapply pm_widen; eauto; lia. }
    exists y. split; [lia|]. split; auto. split; auto.
    assert (LE z r (r + p) m2) as R1'. { eapply pm_range_all; eauto. destruct Hf1. lia. }
    assert (strict_weak_order lt -> lt z y = false) as Hzy by (apply (R1' (r + n)); auto; lia).
    intros k x Hk Hx. destruct (Nat.lt_ge_cases k (r + p)); [cover Hx|].
    rewrite (pm_out _ _ _ _ _ HP2) in Hx by lia.
    destruct (Nat.eq_dec k (r + p)) as [->|]. { assert (x = z) by congruence. subst. auto. }
    assert (strict_weak_order lt -> lt x z = false) as Hxz by cover Hx. intros HW. apply (le_trans lt HW) with z; red; auto.
  - eapply wp_mono; [apply IH; try lia; eapply full_sub; eauto; lia|].
    replace (r + S p + (len - S p)) with (r + len) by lia. replace (r + S p + (n - S p)) with (r + n) by lia.
    replace (r + S p) with (S (r + p)) by lia.
    intros u m2 (HP2 & y & Hy & Ey & R3 & R4). split. { eapply pm_trans; eauto. eapply pm_widen; eauto; lia. }
    exists y. split; [lia|]. split; auto. split; auto.
    assert (GE z (S (r + p)) (r + len) m2) as R1'. { eapply pm_range_all; eauto. destruct Hf1. lia. }
    assert (strict_weak_order lt -> lt y z = false) as Hzy by (apply (R1' (r + n)); auto; lia).
    intros k x Hk Hx. destruct (Nat.lt_ge_cases k (S (r + p))); [|cover Hx].
    rewrite (pm_out _ _ _ _ _ HP2) in Hx by lia.
    destruct (Nat.eq_dec k (r + p)) as [->|]. { assert (x = z) by congruence. subst. auto. }
    assert (strict_weak_order lt -> lt z x = false) as Hxz by cover Hx. intros HW. apply (le_trans lt HW) with z; red; auto.
Qed.
End Select.
