(** The stack of runs of timsort and the sort itself. *)
From Coq Require Import List Arith Lia Permutation Bool ZArith.
From Verif Require Import Spec.Order Lang.Mem Spec.Sorts Proofs.Wp Proofs.OrderLib Model.Basic Proofs.Basic Model.Rotate Proofs.Rotate
  Model.Search Proofs.Search Proofs.Indirect Model.Buffer Model.Select Proofs.IndexLib Proofs.Stable Proofs.MergeSort Model.Tim Proofs.Tim Proofs.TimMerge Proofs.TimMergeHi.
Import ListNotations.

Section TimSort.
Context {A T : Type} (comp : T -> T -> bool) (proj : A -> T).
Notation lt := (by_proj comp proj).
Variable ord : Prop.
Hypothesis HORD : ord -> strict_weak_order lt.
Variable strict : bool.
Hypothesis HSTR : strict = true -> ord.
Notation st := (st lt ord).
Notation le := (OrderLib.le lt).

(** The runs, last run first. *)
Definition flat (rs : list (list A)) : list A := concat (rev rs).
Lemma flat_cons : forall r rs, flat (r :: rs) = flat rs ++ r.
Proof. intros. unfold flat. simpl. rewrite concat_app. simpl. now rewrite app_nil_r. Qed.

Fixpoint pend (start : nat) (rs : list (list A)) (p : pending) : Prop :=
  match rs, p with
  | [], [] => True
  | r :: rs, (b, l) :: p => b = start + length (flat rs) /\ l = length r /\ pend start rs p
  | _, _ => False
  end.
Lemma pend_length : forall start rs p, pend start rs p -> length p = length rs.
Proof. induction rs as [|r rs IH]; intros [|[b l] p] H; simpl in *; try tauto. f_equal. apply IH. tauto. Qed.

Definition good (rs : list (list A)) : Prop := Forall (fun r => r <> [] /\ (ord -> sorted lt r)) rs.

Definition pinv (pre post : mem A) (xs : list A) (p : pending) (ts : tim_state) (m : mem A) : Prop :=
  exists rs, pend (length pre) rs p /\ good rs /\ st xs (flat rs) /\ bufok (length pre + length xs + length post) (snd ts) /\
    m = pre ++ map Val (flat rs) ++ post ++ repeat Raw (snd (snd ts)).

Lemma stable_nonempty : forall l1 l2 ys, l1 <> [] -> stable_rel lt ord (l1 ++ l2) ys -> ys <> [] /\ (ord -> sorted lt ys).
Proof.
  intros l1 l2 ys N [HR HS]. split; auto. intros ->. apply st_length in HR. rewrite app_length in HR. destruct l1; [congruence|discriminate].
Qed.

Lemma merge_at_wp : forall deep pre post xs p ts m (Q : pending * tim_state -> mem A -> Prop),
  (if deep : bool then 3 <= length p else 2 <= length p) -> pinv pre post xs p ts m ->
  (forall p' ts' m', pinv pre post xs p' ts' m' -> S (length p') = length p -> Q (p', ts') m') ->
  wp (merge_at comp proj strict deep p ts) Q m.
Proof.
  intros deep pre post xs p [mg b] m Q Hl (rs & HP & HG & HS & HB & ->) HQ. simpl snd in *. unfold merge_at. destruct deep.
  - destruct p as [|[b3 n3] [|[b2 n2] [|[b1 n1] p]]]; try (simpl in Hl; lia).
    destruct rs as [|r3 [|r2 [|r1 rs]]]; try (simpl in HP; tauto).
    destruct HP as (-> & -> & -> & -> & -> & -> & HP). inversion HG as [|? ? [N3 S3] HG1]. inversion HG1 as [|? ? [N2 S2] HG2]. inversion HG2 as [|? ? [N1 S1] HG3]. subst.
    rewrite !flat_cons in *.
    apply wp_bind. reshape ((pre ++ map Val (flat rs)) ++ map Val r1 ++ map Val r2 ++ (map Val r3 ++ post) ++ repeat Raw (snd b)).
    apply (merge_consecutive_runs_wp comp proj ord HORD strict HSTR); auto; try (lens; fail).
    { apply st_length in HS. rewrite !app_length in HS. replace (length (pre ++ map Val (flat rs)) + length r1 + length r2 + length (map (@Val A) r3 ++ post)) with (length pre + length xs + length post) by lens. auto. }
    intros ys mg' b' HR HB'. apply wp_ret. apply HQ; [|simpl; lia].
    assert (length ys = length r1 + length r2) as HY. { destruct HR as [HR _]. apply st_length in HR. rewrite app_length in HR. lia. }
    exists (r3 :: ys :: rs). simpl snd. cj; auto.
    + simpl. rewrite !flat_cons. cj; auto; lens.
    + constructor; auto. constructor; auto. eapply stable_nonempty; eauto.
    + eapply st_trans; [exact HS|]. rewrite !flat_cons. rewrite <- !app_assoc. apply st_app; [apply st_refl|]. rewrite app_assoc. apply st_app; [apply HR|apply st_refl].
    + apply st_length in HS. rewrite !app_length in HS. replace (length pre + length xs + length post) with (length (pre ++ map Val (flat rs)) + length r1 + length r2 + length (map (@Val A) r3 ++ post)) by lens. auto.
    + rewrite !flat_cons. solve_app.
  - destruct p as [|[b2 n2] [|[b1 n1] p]]; try (simpl in Hl; lia).
    destruct rs as [|r2 [|r1 rs]]; try (simpl in HP; tauto).
    destruct HP as (-> & -> & -> & -> & HP). inversion HG as [|? ? [N2 S2] HG1]. inversion HG1 as [|? ? [N1 S1] HG2]. subst.
    rewrite !flat_cons in *.
    apply wp_bind. reshape ((pre ++ map Val (flat rs)) ++ map Val r1 ++ map Val r2 ++ post ++ repeat Raw (snd b)).
    apply (merge_consecutive_runs_wp comp proj ord HORD strict HSTR); auto; try (lens; fail).
    { apply st_length in HS. rewrite !app_length in HS. replace (length (pre ++ map Val (flat rs)) + length r1 + length r2 + length post) with (length pre + length xs + length post) by lens. auto. }
    intros ys mg' b' HR HB'. apply wp_ret. apply HQ; [|simpl; lia].
    assert (length ys = length r1 + length r2) as HY. { destruct HR as [HR _]. apply st_length in HR. rewrite app_length in HR. lia. }
    exists (ys :: rs). simpl snd. cj; auto.
    + simpl. cj; auto; lens.
    + constructor; auto. eapply stable_nonempty; eauto.
    + eapply st_trans; [exact HS|]. rewrite !flat_cons. rewrite <- !app_assoc. apply st_app; [apply st_refl|]. apply HR.
    + apply st_length in HS. rewrite !app_length in HS. replace (length pre + length xs + length post) with (length (pre ++ map Val (flat rs)) + length r1 + length r2 + length post) by lens. auto.
    + rewrite !flat_cons. solve_app.
Qed.

Definition enough (policy : pending -> option bool) : Prop :=
  forall p deep, policy p = Some deep -> if deep : bool then 3 <= length p else 2 <= length p.

Lemma merge_collapse_wp : forall policy pre post xs p ts m (Q : pending * tim_state -> mem A -> Prop),
  enough policy -> pinv pre post xs p ts m ->
  (forall p' ts' m', pinv pre post xs p' ts' m' -> policy p' = None -> Q (p', ts') m') ->
  wp (merge_collapse comp proj strict policy p ts) Q m.
Proof.
  intros policy pre post xs p ts m Q HE HI HQ. unfold merge_collapse.
  apply wp_loop' with (I := fun '(p', ts') m' => pinv pre post xs p' ts' m') (mu := fun '(p', _) => length p'); auto.
  intros [p' ts'] m' HI'. destruct (policy p') as [deep|] eqn:E; [|apply wp_ret; auto].
  apply wp_bind. eapply merge_at_wp; [apply HE; eauto|eauto|]. intros p2 ts2 m2 HI2 HL. apply wp_ret. split; auto. lia.
Qed.

Lemma tim_enough : enough tim_collapse.
Proof.
  intros [|[? c] [|[? b] [|[? a] q]]] deep; simpl; try discriminate.
  - destruct (_ <=? _); [|discriminate]. intros E. injection E as <-. lia.
  - destruct (_ || _). { intros E. injection E as <-. destruct (_ <? _); simpl; lia. }
    destruct (_ <=? _); [|discriminate]. intros E. injection E as <-. simpl; lia.
Qed.
Lemma shivers_enough : enough shivers_collapse.
Proof.
  intros [|[? c] [|[? b] [|[? a] q]]] deep; simpl; try discriminate.
  destruct (_ <=? _); [discriminate|]. intros E. injection E as <-. simpl; lia.
Qed.
Lemma force_enough : enough force_collapse.
Proof.
  intros [|[? c] [|[? b] [|[? a] q]]] deep; simpl; try discriminate.
  - intros E. injection E as <-. lia.
  - intros E. injection E as <-. destruct (_ <? _); simpl; lia.
Qed.

Lemma min_run_length_wp : forall n (Q : nat -> mem A -> Prop) m, (forall k, Q k m) -> wp (min_run_length n) Q m.
Proof.
  intros n Q m HQ. unfold min_run_length. apply wp_loop' with (I := fun _ m' => m' = m) (mu := fun '(n, _) => n); auto.
  intros [k r] m' ->. destruct (Nat.leb_spec 64 k); apply wp_ret; auto. split; auto. apply Nat.div_lt; lia.
Qed.

Lemma tim_step_wp : forall policy pre post rs rest xs hi min_run cur remaining p mg b (Q : nat * nat * pending * tim_state -> mem A -> Prop),
  enough policy -> pend (length pre) rs p -> good rs -> rest <> [] -> st xs (flat rs ++ rest) ->
  bufok (length pre + length xs + length post) b -> cur = length pre + length (flat rs) -> hi = cur + length rest -> remaining = length rest ->
  (forall rs' rest' p' ts', pend (length pre) rs' p' -> good rs' -> st xs (flat rs' ++ rest') -> length rest' < length rest ->
     bufok (length pre + length xs + length post) (snd ts') ->
     Q (length pre + length (flat rs'), length rest', p', ts') (pre ++ map Val (flat rs') ++ map Val rest' ++ post ++ repeat Raw (snd (snd ts')))) ->
  wp (tim_step comp proj strict policy hi min_run (cur, remaining, p, (mg, b))) Q (pre ++ map Val (flat rs) ++ map Val rest ++ post ++ repeat Raw (snd b)).
Proof.
  intros policy pre post rs rest xs hi min_run cur remaining p mg b Q HE HP HG HN HS HB -> -> -> HQ. unfold tim_step.
  apply wp_bind. reshape ((pre ++ map Val (flat rs)) ++ map Val rest ++ post ++ repeat Raw (snd b)).
  apply (count_run_wp comp proj ord HORD); auto; try (lens; fail). intros r q Hrq Nr Sr.
  assert (length rest = length r + length q) as HL. { apply st_length in Hrq. rewrite app_length in Hrq. auto. }
  assert (0 < length r) as Pr. { destruct r; [congruence|simpl; lia]. }
  apply wp_bind.
  apply wp_mono with (Q := fun len m => exists ys q', len = length ys /\ ys <> [] /\ (ord -> sorted lt ys) /\ st rest (ys ++ q') /\
    m = pre ++ map Val (flat rs ++ ys) ++ map Val q' ++ post ++ repeat Raw (snd b)).
  { destruct (length r <? min_run) eqn:E.
    - apply Nat.ltb_lt in E. set (k := Nat.min (length rest) min_run - length r).
      assert (k <= length q /\ length r + k = Nat.min (length rest) min_run) as [Hk Hk'] by (unfold k; lia).
      assert (length (firstn k q) = k) as Hf by (rewrite firstn_length; lia).
      rewrite <- Hk'. clearbody k. clear Hk' E.
      rewrite <- (firstn_skipn k q). apply wp_bind. reshape ((pre ++ map Val (flat rs)) ++ map Val (r ++ firstn k q) ++ map Val (skipn k q) ++ post ++ repeat Raw (snd b)).
      apply (binary_sort_wp comp proj ord HORD); auto; try (lens; fail). intros ys HY. apply wp_ret. exists ys, (skipn k q).
      assert (length ys = length r + k) as HYL. { destruct HY as [HY _]. apply st_length in HY. rewrite app_length, Hf in HY. auto. }
      destruct (stable_nonempty _ _ _ Nr HY) as [N S]. cj; auto; try lia.
      + eapply st_trans; [exact Hrq|]. rewrite <- (firstn_skipn k q) at 1. rewrite app_assoc. apply st_app; [apply HY|apply st_refl].
      + solve_app.
    - apply wp_ret. exists r, q. cj; auto. solve_app. }
  intros len m (ys & q' & -> & NY & SY & HY & ->).
  assert (length rest = length ys + length q') as HLY. { apply st_length in HY. rewrite app_length in HY. auto. }
  assert (0 < length ys) as Py. { destruct ys; [congruence|simpl; lia]. }
  assert (length xs = length (flat rs) + length rest) as HLX. { apply st_length in HS. rewrite app_length in HS. auto. }
  apply wp_bind. apply merge_collapse_wp with (pre := pre) (post := map Val q' ++ post) (xs := flat rs ++ ys); auto.
  - exists (ys :: rs). simpl snd. rewrite flat_cons. cj; auto.
    + simpl. cj; auto.
    + constructor; auto.
    + apply st_refl.
    + replace (length pre + length (flat rs ++ ys) + length (map (@Val A) q' ++ post)) with (length pre + length xs + length post) by lens. auto.
    + solve_app.
  - intros p' ts' m' (rs' & HP' & HG' & HS' & HB' & ->) _.
    reshape (pre ++ map Val (flat rs') ++ map Val q' ++ post ++ repeat Raw (snd (snd ts'))). apply wp_ret.
    assert (length (flat rs') = length (flat rs) + length ys) as HLF. { apply st_length in HS'. rewrite app_length in HS'. lia. }
    replace (length pre + length (flat rs) + length ys) with (length pre + length (flat rs')) by lia. replace (length rest - length ys) with (length q') by lia.
    apply HQ; auto; try lia.
    + eapply st_trans; [exact HS|]. eapply st_trans; [apply st_app; [apply st_refl|exact HY]|]. rewrite app_assoc. apply st_app; auto. apply st_refl.
    + replace (length pre + length xs + length post) with (length pre + length (flat rs ++ ys) + length (map (@Val A) q' ++ post)) by lens. auto.
Qed.

Theorem tim_sort_base_wp : forall policy, enough policy -> forall xs pre post (Q : unit -> mem A -> Prop),
  (forall ys, stable_rel lt ord xs ys -> Q tt (pre ++ map Val ys ++ post)) ->
  wp (tim_sort_base comp proj strict policy (length pre) (length pre + length xs)) Q (pre ++ map Val xs ++ post).
Proof.
  intros policy HE xs pre post Q HQ. unfold tim_sort_base. asrt.
  replace (length pre + length xs - length pre) with (length xs) by lia.
  destruct (Nat.ltb_spec (length xs) 2) as [H2|H2].
  { apply wp_ret. apply HQ. split; [apply st_refl|]. intros _. destruct xs as [|x [|? ?]]; [apply sorted_nil|apply sorted_one|simpl in H2; lia]. }
  assert (xs <> []) as Nx by (intros ->; simpl in H2; lia).
  destruct (length xs <? 32) eqn:E32.
  { apply wp_bind. apply (count_run_wp comp proj ord HORD); auto. intros r q Hrq Nr Sr.
    assert (length xs = length r + length q) as HL. { apply st_length in Hrq. rewrite app_length in Hrq. auto. }
    apply (binary_sort_wp comp proj ord HORD); auto; try (lens; fail). intros ys [HY1 HY2]. apply HQ. split; auto. eapply st_trans; eauto. }
  clear E32. apply wp_bind, min_run_length_wp. intros min_run. apply wp_bind.
  apply wp_loop' with (I := fun '(cur, remaining, p, ts) m => exists rs rest, pend (length pre) rs p /\ good rs /\ rest <> [] /\ st xs (flat rs ++ rest) /\
      bufok (length pre + length xs + length post) (snd ts) /\ cur = length pre + length (flat rs) /\ remaining = length rest /\
      m = pre ++ map Val (flat rs) ++ map Val rest ++ post ++ repeat Raw (snd (snd ts))) (mu := fun '(_, remaining, _, _) => remaining).
  - exists [], xs. cj; auto; try (simpl; lia).
    + constructor.
    + apply st_refl.
    + left. auto.
    + simpl. solve_app.
  - lia.
  - intros [[[cur remaining] p] [mg b]] m (rs & rest & HP & HG & HN & HS & HB & -> & -> & ->). apply wp_bind.
    assert (length xs = length (flat rs) + length rest) as HLX. { apply st_length in HS. rewrite app_length in HS. auto. }
    eapply tim_step_wp; eauto. { lia. } intros rs' rest' p' ts' HP' HG' HS' HL' HB'.
    assert (length xs = length (flat rs') + length rest') as HLX'. { apply st_length in HS'. rewrite app_length in HS'. auto. }
    destruct (Nat.eqb_spec (length rest') 0) as [E|E]; cbn [negb]; apply wp_ret.
    + destruct rest'; [|discriminate]. asrt. apply wp_bind. apply merge_collapse_wp with (pre := pre) (post := post) (xs := flat rs'); auto.
      { apply force_enough. }
      { exists rs'. cj; auto. - apply st_refl. - simpl in HLX'. replace (length (flat rs')) with (length xs) by lia. auto. }
      intros p2 ts2 m2 (rs2 & HP2 & HG2 & HS2 & HB2 & ->) HF.
      rewrite app_nil_r in HS'.
      assert (exists r, rs2 = [r]) as [r ->].
      { pose proof (pend_length _ _ _ HP2) as HPL. destruct rs2 as [|r [|r2 rs2]]; eauto.
        - apply st_length in HS', HS2. simpl in HS2. destruct xs; [congruence|]. simpl in *. lia.
        - destruct p2 as [|[? ?] [|[? ?] p2]]; simpl in *; discriminate. }
      pose proof (pend_length _ _ _ HP2) as HPL. simpl in HPL. asrt.
      inversion HG2 as [|? ? [Nr Sr] _]. subst. unfold flat in HS2 at 2. simpl in HS2. rewrite app_nil_r in HS2.
      unfold flat at 1. simpl concat. rewrite app_nil_r.
      reshape ((pre ++ map Val r ++ post) ++ repeat Raw (snd (snd ts2))). apply return_temporary_buffer_wp.
      { apply st_length in HS2. replace (length (pre ++ map Val r ++ post)) with (length pre + length (flat rs') + length post) by lens. auto. }
      apply HQ. split; auto. eapply st_trans; eauto.
    + split; [|lia]. exists rs', rest'. cj; auto. intros ->. auto.
Qed.

Theorem tim_sort_base_runs : forall policy, enough policy -> runs (stable_rel lt ord) (tim_sort_base comp proj strict policy).
Proof.
  intros policy HE pre xs post. 
  match goal with |- exists ys, ?c ?m = _ /\ _ => assert (wp c (fun _ m' => exists ys, m' = pre ++ map Val ys ++ post /\ stable_rel lt ord xs ys) m) as H end.
  { apply tim_sort_base_wp; eauto. }
  apply wp_ok in H as ([] & m & E & ys & -> & HR). eauto.
Qed.
End TimSort.
