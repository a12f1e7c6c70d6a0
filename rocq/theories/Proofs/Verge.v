(** Vergesort: the merge of the runs. *)
From Coq Require Import List Arith Lia Permutation Bool.
From Verif Require Import Spec.Order Lang.Mem Spec.Sorts Proofs.Wp Proofs.OrderLib Model.Basic Proofs.Basic Model.Rotate Proofs.Rotate
  Model.Search Proofs.Search Proofs.Indirect Model.Buffer Model.Merge Proofs.MergeLib Proofs.Merge Proofs.MergeSort Proofs.Stable Model.Verge.
Import ListNotations.

Section Merge.
Context {A T : Type} (comp : T -> T -> bool) (proj : A -> T).
Notation lt := (by_proj comp proj).
Implicit Types (pre post : mem A).

Lemma inplace_merge_n_wp : forall cat triv o l1 l2 pre post f mi l n1 n2 (Q : unit -> mem A -> Prop),
  cat <> Forward -> f = length pre -> mi = f + length l1 -> l = mi + length l2 -> n1 = length l1 -> n2 = length l2 ->
  (forall ys, is_merge lt l1 l2 ys -> Q tt (pre ++ map Val ys ++ post)) ->
  wp (inplace_merge_n comp proj cat triv o f mi l n1 n2) Q (pre ++ map Val (l1 ++ l2) ++ post).
Proof.
  intros cat triv o l1 l2 pre post f mi l n1 n2 Q HC -> -> -> -> -> HQ.
  unfold inplace_merge_n. apply wp_bind. apply temporary_buffer_wp. intros b HB _ _ _.
  pose proof (bufok_raws _ _ HB) as HR. apply wp_bind.
  assert (EM : (pre ++ map Val (l1 ++ l2) ++ post) ++ repeat Raw (snd b) =
               pre ++ map Val (l1 ++ l2) ++ post ++ repeat Raw (snd b)) by solve_app.
  rewrite EM in *.
  apply inplace_merge_buffered_wp; auto; try (lens; fail). { tauto. }
  intros r HM. pose proof (is_merge_length _ _ _ _ HM) as HL.
  reshape ((pre ++ map Val r ++ post) ++ repeat Raw (snd b)).
  apply return_temporary_buffer_wp; auto.
  replace (length (pre ++ map Val r ++ post)) with (length (pre ++ map Val (l1 ++ l2) ++ post)) by lens. auto.
Qed.

Lemma is_merge_insert_left : forall x u v, (strict_weak_order lt -> sorted lt (u ++ v) -> (forall y, In y u -> lt y x = true) /\ (forall y, In y v -> lt y x = false)) ->
  is_merge lt [x] (u ++ v) (u ++ x :: v).
Proof.
  intros x u v H. apply (is_merge_split_min lt [] x [] u v u v).
  - intros HW _ HS. destruct (H HW HS) as [H1 H2]. split; auto.
  - apply is_merge_nil_l.
  - apply is_merge_nil_l.
Qed.

Lemma is_merge_insert_right : forall y u v, (strict_weak_order lt -> sorted lt (u ++ v) -> (forall x, In x u -> lt y x = false) /\ (forall x, In x v -> lt y x = true)) ->
  is_merge lt (u ++ v) [y] (u ++ y :: v).
Proof.
  intros y u v H. apply (is_merge_split_max lt u y v [] [] u v).
  - intros HW HS _. destruct (H HW HS) as [H1 H2]. split; auto.
  - apply is_merge_nil_r.
  - apply is_merge_nil_r.
Qed.

Variables (cat : category) (triv : bool) (o : oracle).
Hypothesis HC : cat <> Forward.

(** Outside of the case of a run of one element that does not come first, the two runs are merged. *)
Lemma merge_two_wp : forall d l1 l2 pre post f b e1 e2 (Q : unit -> mem A -> Prop),
  l1 <> [] -> l2 <> [] -> f = length pre -> b = f + length d -> e1 = b + length l1 -> e2 = e1 + length l2 ->
  (forall d' ys, length d' = length d -> Permutation (d ++ l1 ++ l2) (d' ++ ys) -> (d = [] \/ length l1 <> 1 -> d' = d /\ is_merge lt l1 l2 ys) ->
     Q tt (pre ++ map Val (d' ++ ys) ++ post)) ->
  wp (merge_two comp proj cat triv o f b (e1, length l1) (e2, length l2)) Q (pre ++ map Val (d ++ l1 ++ l2) ++ post).
Proof.
  intros d l1 l2 pre post f b e1 e2 Q N1 N2 -> -> -> -> HQ. unfold merge_two.
  assert (HM : forall ys, is_merge lt l1 l2 ys -> Q tt (pre ++ map Val (d ++ ys) ++ post)).
  { intros ys H. apply HQ; auto. apply Permutation_app_head, H. }
  destruct (Nat.eqb_spec (length l1) 1) as [E1|E1].
  - destruct l1 as [|x [|]]; try (simpl in E1; lia). destruct l2 as [|y l2]; [congruence|]. cbn [length].
    apply wp_bind. reshape ((pre ++ map Val d) ++ Val x :: map Val (y :: l2) ++ post). apply wp_get_at. { lens. }
    apply wp_bind. reshape ((pre ++ map Val (d ++ [x])) ++ Val y :: map Val l2 ++ post). apply wp_get_at. { lens. }
    destruct (comp (proj y) (proj x)) eqn:Ec.
    + apply wp_bind. reshape ((pre ++ map Val (d ++ [x])) ++ map Val (y :: l2) ++ post). apply lower_bound_n_wp; [lens|reflexivity|].
      intros u v [Euv Hp]. rewrite Euv. apply wp_bind.
      destruct d as [|z d].
      * reshape (pre ++ map Val (x :: u) ++ map Val v ++ post). apply rotate_left_wp; [auto|lens|]. apply wp_ret.
        replace (pre ++ map Val (u ++ [x]) ++ map Val v ++ post) with (pre ++ map Val ([] ++ u ++ x :: v) ++ post) by solve_app.
        apply HM. rewrite Euv. apply is_merge_insert_left. intros HW HS. rewrite Euv in Hp. apply Hp. now apply (mono_lt lt HW).
      * reshape (pre ++ map Val (z :: d ++ x :: u) ++ map Val v ++ post). apply rotate_left_wp; [auto|lens|]. apply wp_ret.
        assert (exists d' w, d ++ x :: u ++ z :: v = d' ++ w /\ length d' = S (length d)) as (d' & w & Ew & Hd).
        { exists (firstn (S (length d)) (d ++ x :: u ++ z :: v)), (skipn (S (length d)) (d ++ x :: u ++ z :: v)). rewrite firstn_skipn. split; auto.
          apply firstn_length_le. rewrite app_length. simpl. lia. }
        replace (pre ++ map Val ((d ++ x :: u) ++ [z]) ++ map Val v ++ post) with (pre ++ map Val (d' ++ w) ++ post) by (rewrite <- Ew; solve_app).
        apply HQ; [simpl; lia| |intros [?|?]; [discriminate|simpl in *; lia]].
        rewrite <- Ew, Euv. simpl.
        replace (d ++ x :: u ++ v) with ((d ++ x :: u) ++ v) by now rewrite <- app_assoc.
        replace (d ++ x :: u ++ z :: v) with ((d ++ x :: u) ++ z :: v) by now rewrite <- app_assoc.
        apply Permutation_middle.
    + apply wp_ret. replace ((pre ++ map Val (d ++ [x])) ++ Val y :: map Val l2 ++ post) with (pre ++ map Val (d ++ x :: y :: l2) ++ post) by solve_app.
      apply HM. apply is_merge_skip with y l2; auto. apply is_merge_nil_l.
  - destruct (Nat.eqb_spec (length l2) 1) as [E2|E2].
    + destruct l2 as [|y [|]]; try (simpl in E2; lia). destruct (exists_last N1) as (l1' & x & ->). cbn [length].
      apply wp_bind. reshape ((pre ++ map Val (d ++ l1' ++ [x])) ++ Val y :: post). apply wp_get_at. { lens. }
      apply wp_bind. reshape ((pre ++ map Val (d ++ l1')) ++ Val x :: Val y :: post). apply wp_get_at. { lens. }
      destruct (comp (proj y) (proj x)) eqn:Ec.
      * apply wp_bind. reshape ((pre ++ map Val d) ++ map Val (l1' ++ [x]) ++ Val y :: post). apply upper_bound_n_wp; [lens|reflexivity|].
        intros u v [Euv Hp]. rewrite Euv in *. apply wp_bind.
        reshape ((pre ++ map Val (d ++ u)) ++ map Val (v ++ [y]) ++ post). apply rotate_right_wp; [lens| |].
        { apply (f_equal (@length A)) in Euv. rewrite !app_length in *. lens. } apply wp_ret.
        replace ((pre ++ map Val (d ++ u)) ++ map Val (y :: v) ++ post) with (pre ++ map Val (d ++ u ++ y :: v) ++ post) by solve_app.
        apply HM. apply is_merge_insert_right. intros HW HS. destruct Hp as [H1 H2]. { now apply (mono_ngt lt HW). }
        split; intros z Hz; [specialize (H1 z Hz); now apply negb_true_iff in H1|specialize (H2 z Hz); now apply negb_false_iff in H2].
      * apply wp_ret. replace ((pre ++ map Val (d ++ l1')) ++ Val x :: Val y :: post) with (pre ++ map Val (d ++ l1' ++ [x; y]) ++ post) by solve_app.
        apply HM. replace (l1' ++ [x; y]) with ((l1' ++ [x]) ++ y :: []) by now rewrite <- app_assoc.
        pose proof (is_merge_insert_right y (l1' ++ [x]) []) as HI. rewrite app_nil_r in HI. apply HI. intros HW HS. split; [|intros ? []].
        intros z Hz. apply in_app_or in Hz as [Hz|[<-|[]]]; auto. apply sorted_app in HS as (_ & _ & HS).
        apply (le_trans lt HW z x y); [apply HS; simpl; auto|exact Ec].
    + reshape ((pre ++ map Val d) ++ map Val (l1 ++ l2) ++ post). apply inplace_merge_n_wp; auto; try (lens; fail).
      intros ys H. replace ((pre ++ map Val d) ++ map Val ys ++ post) with (pre ++ map Val (d ++ ys) ++ post) by solve_app. auto.
Qed.
End Merge.

Lemma app_eq_split : forall X (a b c d : list X), length a = length c -> a ++ b = c ++ d -> a = c /\ b = d.
Proof.
  induction a as [|x a IH]; intros b [|y c] d HL H; try discriminate; auto. simpl in *. injection H as -> H. injection HL as HL.
  destruct (IH _ _ _ HL H) as [-> ->]. auto.
Qed.

Section Runs.
Context {A T : Type} (comp : T -> T -> bool) (proj : A -> T).
Notation lt := (by_proj comp proj).
Variables (cat : category) (triv : bool) (o : oracle).
Hypothesis HC : cat <> Forward.
(** [ord]: the comparator is an order and every run of one element comes first or last; [False] otherwise. *)
Variables (ord : Prop) (stable : bool).
Hypothesis HORD : ord -> strict_weak_order lt.
Definition ost : Prop := ord /\ stable = true.
Notation st := (st lt ost).
Implicit Types (pre post : mem A) (segs : list (list A)).

Definition sorting (v w : list A) : Prop := st v w /\ (ord -> sorted lt w).

Lemma merge_sorting : forall l1 l2 ys, is_merge lt l1 l2 ys -> (ord -> sorted lt l1 /\ sorted lt l2) -> sorting (l1 ++ l2) ys.
Proof.
  intros l1 l2 ys [HP HS] H. split.
  - split; auto. intros [Ho _]. destruct (H Ho) as [H1 H2]. rewrite (HS (HORD Ho) H1 H2). apply ssort_same; auto.
  - intros Ho. destruct (H Ho) as [H1 H2]. rewrite (HS (HORD Ho) H1 H2). apply ssort_sorted; auto.
Qed.

(** The list of runs describes the segments that begin at [b]. *)
Fixpoint runs_at (b : nat) segs (rs : list run) : Prop :=
  match segs, rs with
  | [], [] => True
  | s :: segs, (e, n) :: rs => e = b + length s /\ n = length s /\ runs_at e segs rs
  | _, _ => False
  end.
Lemma runs_at_length : forall segs b rs, runs_at b segs rs -> length rs = length segs.
Proof. induction segs as [|s segs IH]; intros b [|[e n] rs] H; simpl in *; try tauto. destruct H as (_ & _ & H). f_equal. eauto. Qed.
Lemma runs_at_app : forall segs b rs segs' rs', runs_at b segs rs -> runs_at (b + length (concat segs)) segs' rs' ->
  runs_at b (segs ++ segs') (rs ++ rs').
Proof.
  induction segs as [|s segs IH]; intros b [|[e n] rs] segs' rs' H H'; simpl in *; try tauto. { now rewrite Nat.add_0_r in H'. }
  destruct H as (-> & -> & H). cj; auto. apply IH; auto. rewrite app_length in H'. now replace (b + length s + length (concat segs)) with (b + (length s + length (concat segs))) by lia.
Qed.

(** No segment but the last one has one element. *)
Definition no_lone segs : Prop := forall s, In s (removelast segs) -> length s <> 1.
Definition ne segs : Prop := Forall (fun s => s <> []) segs.
Definition srt segs : Prop := ord -> Forall (sorted lt) segs.

Lemma no_lone_cons : forall s segs, no_lone segs -> length s <> 1 -> no_lone (s :: segs).
Proof.
  intros s segs H Hs t Ht. destruct segs as [|s' segs]. { destruct Ht. }
  change (removelast (s :: s' :: segs)) with (s :: removelast (s' :: segs)) in Ht. destruct Ht as [<-|Ht]; auto.
Qed.
Lemma no_lone_small : forall segs, length segs <= 1 -> no_lone segs.
Proof. intros [|s [|]] H t Ht; simpl in *; try tauto; lia. Qed.
Lemma no_lone_tl : forall s segs, no_lone (s :: segs) -> no_lone segs.
Proof.
  intros s segs H t Ht. apply H. destruct segs as [|s' segs]. { destruct Ht. } now right.
Qed.
Lemma no_lone_hd : forall s s' segs, no_lone (s :: s' :: segs) -> length s <> 1.
Proof. intros s s' segs H. apply H. now left. Qed.

Lemma merge_pass_wp : forall n segs d pre post f b rs (Q : list run -> mem A -> Prop),
  length segs <= n -> f = length pre -> b = f + length d -> runs_at b segs rs -> ne segs -> srt segs -> (ord -> d = [] /\ no_lone (tl segs) \/ no_lone segs) ->
  (forall d' segs' rs', length d' = length d -> (ord -> d' = d) -> runs_at b segs' rs' -> ne segs' -> srt segs' ->
     st (d ++ concat segs) (d' ++ concat segs') -> (ord -> no_lone segs') -> 2 * length segs' <= S (length segs) ->
     length segs <= 2 * length segs' ->
     Q rs' (pre ++ map Val (d' ++ concat segs') ++ post)) ->
  wp (merge_pass comp proj cat triv o f b rs) Q (pre ++ map Val (d ++ concat segs) ++ post).
Proof.
  induction n as [|n IH]; intros segs d pre post f b rs Q Hn -> -> HR HN HS HL HQ.
  { destruct segs; [|simpl in Hn; lia]. destruct rs; [|simpl in HR; tauto]. cbn [merge_pass]. apply wp_ret.
    apply HQ; simpl; auto using st_refl; try lia. intros _. apply no_lone_small. simpl. lia. }
  destruct segs as [|s1 segs]. { destruct rs; [|simpl in HR; tauto]. cbn [merge_pass]. apply wp_ret. apply HQ; simpl; auto using st_refl; try lia. intros _. apply no_lone_small. simpl. lia. }
  destruct rs as [|[e1 n1] rs]; [simpl in HR; tauto|].
  destruct segs as [|s2 segs].
  { destruct rs; [|simpl in HR; tauto]. cbn [merge_pass]. apply wp_ret. apply HQ; auto using st_refl; try (simpl; lia). intros _. apply no_lone_small. simpl. lia. }
  destruct rs as [|[e2 n2] rs]; [simpl in HR; tauto|].
  destruct HR as (-> & -> & -> & -> & HR). inversion HN as [|? ? N1 HN1]; subst. inversion HN1 as [|? ? N2 HN2]; subst.
  cbn [merge_pass fst snd]. apply wp_bind. simpl concat.
  reshape (pre ++ map Val (d ++ s1 ++ s2) ++ map Val (concat segs) ++ post). apply merge_two_wp; auto.
  intros d1 ys Hd1 HP HM.
  assert (length ys = length s1 + length s2) as LY. { apply Permutation_length in HP. rewrite !app_length in HP. lia. }
  assert (HO : ord -> d1 = d /\ is_merge lt s1 s2 ys).
  { intros Ho. apply HM. destruct (HL Ho) as [[-> _]|HL']; auto. right. eapply no_lone_hd; eauto. }
  assert (HSR : srt [ys]).
  { intros Ho. constructor; [|constructor]. destruct (HO Ho) as [_ HM']. specialize (HS Ho). inversion HS as [|? ? S1 HS1]; subst. inversion HS1; subst.
    destruct (merge_sorting _ _ _ HM') as [_ H]; auto. }
  assert (HST : st (d ++ s1 ++ s2) (d1 ++ ys)).
  { split; auto. intros [Ho E]. destruct (HO Ho) as [-> HM']. apply same_app; [apply same_refl|]. specialize (HS Ho).
    inversion HS as [|? ? S1 HS1]; subst. inversion HS1; subst. destruct (merge_sorting _ _ _ HM') as [[_ H] _]; auto. apply H. split; auto. }
  apply wp_bind.
  reshape (pre ++ map Val ((d1 ++ ys) ++ concat segs) ++ post).
  assert (2 <= length ys) as LY2. { destruct s1, s2; try congruence. simpl in LY. lia. }
  eapply IH with (segs := segs); [simpl in Hn; lia|reflexivity|rewrite app_length; lia|exact HR|auto| | |].
  { intros Ho. specialize (HS Ho). inversion HS as [|? ? S1 HS1]; subst. inversion HS1; auto. }
  { intros Ho. right. destruct (HL Ho) as [[_ HL']|HL'].
    - now apply no_lone_tl with s2.
    - apply no_lone_tl with s2. now apply no_lone_tl with s1. }
  intros d' segs' rs' Hd' HO' HR' HN' HS' HST' HL' HA HB. apply wp_ret.
  assert (exists d2 ys2, d' = d2 ++ ys2 /\ length d2 = length d /\ length ys2 = length ys) as (d2 & ys2 & -> & Hd2 & LY').
  { exists (firstn (length d1) d'), (skipn (length d1) d'). rewrite firstn_skipn, skipn_length. rewrite app_length in Hd'. split; auto. split; [|lia].
    rewrite firstn_length_le; lia. }
  assert (HOO : ord -> d2 = d /\ ys2 = ys).
  { intros Ho. specialize (HO' Ho). destruct (HO Ho) as [-> _]. apply app_eq_split in HO'; auto. }
  replace (pre ++ map Val ((d2 ++ ys2) ++ concat segs') ++ post) with (pre ++ map Val (d2 ++ concat (ys2 :: segs')) ++ post) by (simpl; solve_app).
  apply HQ; auto.
  - intros Ho. now apply HOO.
  - simpl. cj; try lia. exact HR'.
  - constructor; auto. destruct ys2; [simpl in LY'; lia|discriminate].
  - intros Ho. destruct (HOO Ho) as [_ ->]. constructor; [|auto]. specialize (HSR Ho). now inversion HSR.
  - apply st_trans with ((d1 ++ ys) ++ concat segs).
    + replace (d ++ concat (s1 :: s2 :: segs)) with ((d ++ s1 ++ s2) ++ concat segs) by (simpl; now rewrite <- !app_assoc). apply st_app; auto using st_refl.
    + simpl. now rewrite app_assoc.
  - intros Ho. apply no_lone_cons; auto. lia.
  - simpl in *. lia.
  - simpl in *. lia.
Qed.

Lemma merge_runs_wp : forall segs pre post rs, runs_at (length pre) segs rs -> ne segs -> srt segs -> (ord -> no_lone (tl segs)) -> segs <> [] ->
  wp (merge_runs comp proj cat triv o (length pre) rs) (fun _ m => exists ys, m = pre ++ map Val ys ++ post /\ sorting (concat segs) ys)
    (pre ++ map Val (concat segs) ++ post).
Proof.
  intros segs pre post rs HR HN HS HL Hne. unfold merge_runs. pose proof (runs_at_length _ _ _ HR) as Hlen.
  assert (HONE : forall s, srt [s] -> sorting (concat [s]) s).
  { intros s H. split. { simpl. rewrite app_nil_r. apply st_refl. } intros Ho. specialize (H Ho). now inversion H. }
  destruct (Nat.ltb_spec (length rs) 2) as [H2|H2].
  { apply wp_ret. destruct segs as [|s [|]]; [congruence| |simpl in *; lia]. exists s. split; auto. simpl. now rewrite app_nil_r. }
  apply wp_loop' with (I := fun rs m => exists segs', runs_at (length pre) segs' rs /\ ne segs' /\ srt segs' /\ (ord -> no_lone (tl segs')) /\
      2 <= length segs' /\ st (concat segs) (concat segs') /\ m = pre ++ map Val (concat segs') ++ post) (mu := fun rs => length rs).
  - exists segs. cj; auto using st_refl. lia.
  - lia.
  - clear HR HN HS HL Hlen H2 rs. intros rs m (segs' & HR & HN & HS & HL & H2 & HST & ->). apply wp_bind.
    pose proof (runs_at_length _ _ _ HR) as Hlen.
    eapply (merge_pass_wp (length segs') segs' []); auto.
    intros d' segs2 rs2 Hd _ HR2 HN2 HS2 HST2 HL2 HA HB. destruct d'; [|discriminate]. simpl app in *.
    pose proof (runs_at_length _ _ _ HR2) as Hlen2.
    assert (HST3 : st (concat segs) (concat segs2)) by (eapply st_trans; eauto).
    destruct (Nat.ltb_spec 1 (length rs2)) as [H3|H3]; apply wp_ret.
    + split; [|lia]. exists segs2. cj; auto; [|lia]. intros Ho. specialize (HL2 Ho). destruct segs2; auto. eapply no_lone_tl; eauto.
    + destruct segs2 as [|s [|]]; [simpl in *; lia| |simpl in *; lia]. exists s. split. { simpl. now rewrite app_nil_r. }
      destruct (HONE s HS2) as [HA1 HA2]. split; auto. eapply st_trans; eauto.
Qed.
End Runs.
