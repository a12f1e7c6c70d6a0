(** Proofs about Model/Stability.v. *)
From Coq Require Import List Bool Arith Lia.
From Verif Require Import Spec.Order Proofs.OrderLib Model.Adapters Proofs.Adapters Model.Stability Spec.Stability.
Import ListNotations.

Lemma weight_pos : forall s, 1 <= weight s.
Proof. induction s; simpl; lia. Qed.

(** Induction that reaches the sorters of a hybrid_adapter. *)
Section Induction.
Variable P : sorter -> Prop.
Hypothesis (HL : forall c b k, P (Leaf c b k)) (HH : forall l, Forall P l -> P (Hybrid l)) (HC : forall s, P s -> P (Counting s))
  (HI : forall s, P s -> P (Indirect s)) (HO : forall s, P s -> P (OutOfPlace s)) (HS : forall s, P s -> P (Schwartz s))
  (HM : forall s, P s -> P (MakeStable s)) (HA : forall s, P s -> P (StableAdapter s)).
Fixpoint sorter_rect' (s : sorter) : P s :=
  match s with
  | Leaf c b k => HL c b k
  | Hybrid l => HH l ((fix go (l : list sorter) : Forall P l := match l with [] => Forall_nil _ | s :: l => Forall_cons _ (sorter_rect' s) (go l) end) l)
  | Counting s => HC s (sorter_rect' s)
  | Indirect s => HI s (sorter_rect' s)
  | OutOfPlace s => HO s (sorter_rect' s)
  | Schwartz s => HS s (sorter_rect' s)
  | MakeStable s => HM s (sorter_rect' s)
  | StableAdapter s => HA s (sorter_rect' s)
  end.
End Induction.

Lemma keeps_hybrid : forall l, keeps_choices (Hybrid l) <-> Forall keeps_choices l.
Proof.
  induction l as [|s l IH]; [split; [constructor | exact (fun _ => I)]|].
  change (keeps_choices (Hybrid (s :: l))) with (keeps_choices s /\ keeps_choices (Hybrid l)).
  rewrite IH. split; [intros [H1 H2]; constructor; auto | intros H; inversion H; auto].
Qed.

Lemma free_keeps : forall s, hybrid_free s -> keeps_choices s.
Proof. induction s; simpl; auto; contradiction. Qed.

(** ** stable_t *)

Lemma adapter_type_stable : forall s, always_stable (adapter_type s) = true.
Proof. induction s; simpl; auto; match goal with |- context [if ?b then _ else _] => destruct b eqn:E end; simpl; auto. Qed.

Lemma stable_t_stable : forall s, always_stable (stable_t s) = true.
Proof.
  intros s. unfold stable_t. destruct (always_stable s) eqn:E; [|apply adapter_type_stable].
  destruct s; simpl; auto. apply adapter_type_stable.
Qed.

Lemma stable_t_adapter_type : forall s, stable_t (adapter_type s) = adapter_type s.
Proof.
  induction s; auto; unfold stable_t; rewrite adapter_type_stable; cbn [adapter_type];
    match goal with
    | |- context [if ?b then _ else _] => destruct b eqn:E; cbn [adapter_type]; try rewrite E; reflexivity
    | _ => idtac
    end.
Qed.

Lemma stable_t_idempotent : forall s, stable_t (stable_t s) = stable_t s.
Proof.
  intros s. unfold stable_t at 2 3. destruct (always_stable s) eqn:E; [|apply stable_t_adapter_type].
  destruct s; try (unfold stable_t; rewrite E; reflexivity). apply stable_t_adapter_type.
Qed.

Lemma adapter_type_keeps : forall s, keeps_choices s -> keeps_choices (adapter_type s).
Proof. induction s; intros H; simpl; auto; match goal with |- context [if ?b then _ else _] => destruct b end; auto. Qed.
Lemma stable_t_keeps : forall s, keeps_choices s -> keeps_choices (stable_t s).
Proof.
  intros s H. unfold stable_t. destruct (always_stable s); [|now apply adapter_type_keeps].
  destruct s; auto. now apply adapter_type_keeps.
Qed.

Lemma adapter_type_weight : forall s, weight (adapter_type s) <= 2 * weight s.
Proof. induction s; simpl in *; try lia; match goal with |- context [if ?b then _ else _] => destruct b end; simpl; lia. Qed.
Lemma stable_t_weight : forall s, weight (stable_t s) <= 2 * weight s.
Proof.
  intros s. unfold stable_t. destruct (always_stable s); [|apply adapter_type_weight].
  destruct s; try lia. pose proof (adapter_type_weight s). simpl. lia.
Qed.

(** ** The choices of hybrid_adapter *)

Lemma members_Forall : forall (P : sorter -> Prop), (forall l, P (Hybrid l) -> Forall P l) -> forall s, P s -> Forall P (members s).
Proof.
  intros P H s. induction s as [| l IH | | | | | |] using sorter_rect'; intros HP; try (repeat constructor; assumption).
  simpl. apply H in HP. clear H. induction l as [|s l IHl]; simpl; [constructor|].
  inversion IH; inversion HP; subst. apply Forall_app. split; auto.
Qed.

Lemma choose_Forall : forall (P : sorter -> Prop) l c m, (forall l, P (Hybrid l) -> Forall P l) -> P (Hybrid l) -> choose l c = Some m -> P m.
Proof.
  intros P l c m H HP E. unfold choose in E. destruct (hybrid_dispatch _ _) as [i|]; [|discriminate].
  apply nth_error_In in E. pose proof (members_Forall P H (Hybrid l) HP) as HF. rewrite Forall_forall in HF. now apply HF.
Qed.

Lemma choose_iterators : forall l c d, iterators c = iterators d -> choose l c = choose l d.
Proof. intros l c d E. unfold choose. now rewrite E. Qed.

Lemma members_weight : forall s m, In m (members s) -> weight m <= weight s.
Proof.
  intros s. induction s as [| l IH | | | | | |] using sorter_rect'; intros m HM; simpl in HM; try (destruct HM as [<-|[]]; auto).
  simpl. apply in_flat_map in HM as (x & Hx & HM). rewrite Forall_forall in IH. specialize (IH x Hx m HM).
  clear - Hx IH. induction l as [|y l IHl]; [destruct Hx|]. simpl. destruct Hx as [->|Hx]; [lia|]. specialize (IHl Hx). lia.
Qed.
Lemma choose_weight : forall l c m, choose l c = Some m -> weight m < weight (Hybrid l).
Proof.
  intros l c m E. unfold choose in E. destruct (hybrid_dispatch _ _) as [i|]; [|discriminate].
  apply nth_error_In, in_flat_map in E as (x & Hx & HM). apply members_weight in HM.
  simpl. clear - Hx HM. induction l as [|y l IHl]; [destruct Hx|]. simpl. destruct Hx as [->|Hx]; [lia|]. specialize (IHl Hx). lia.
Qed.

Lemma map_stable_t_weight : forall l, weight (Hybrid (map stable_t l)) < 2 * weight (Hybrid l).
Proof.
  intros l. simpl. enough (fold_right (fun s n => weight s + n) 0 (map stable_t l) <= 2 * fold_right (fun s n => weight s + n) 0 l) by lia.
  induction l as [|s l IH]; simpl; [lia|]. pose proof (stable_t_weight s). lia.
Qed.

(** ** Fuel *)

Lemma is_stable_fuel : forall n s c, weight s <= n -> is_stable n s c <> NoFuel.
Proof.
  induction n as [|n IH]; intros s c HW; [pose proof (weight_pos s); lia|].
  destruct s; simpl in HW; cbn [is_stable]; try discriminate; try (apply IH; lia).
  destruct (choose l c) eqn:E; [|discriminate]. apply choose_weight in E. apply IH. simpl in E. lia.
Qed.

Lemma stabilize_fuel : forall r, r <> NoFuel -> stabilize r <> NoFuel.
Proof. intros [] H; simpl; congruence. Qed.

Lemma runs_fuel : forall n s c, weight s <= n -> runs n s c <> NoFuel.
Proof.
  induction n as [|n IH]; intros s c HW; [pose proof (weight_pos s); lia|].
  destruct s; cbn [runs].
  - destruct (_ <=? _); discriminate.
  - destruct (choose l c) eqn:E; [|discriminate]. apply choose_weight in E. apply IH. lia.
  - apply IH. simpl in HW. lia.
  - apply IH. simpl in HW. lia.
  - apply IH. simpl in HW. lia.
  - simpl in HW. destruct s; try (destruct (projected c); apply IH; simpl in *; lia).
  - apply stabilize_fuel, IH. simpl in HW. lia.
  - pose proof (weight_pos s) as HP.
    assert (weight s <= n) as HW' by (simpl in HW; lia).
    assert (forall b, match is_stable n s c with Answer true => runs n s c | Answer false => stabilize (runs n s (Call RandomAccess false))
      | IllFormed => IllFormed | NoFuel => NoFuel end = b -> b <> NoFuel) as HG.
    { intros b <-. pose proof (is_stable_fuel n s c HW'). destruct (is_stable n s c) as [| |[]]; try congruence; [now apply IH | now apply stabilize_fuel, IH]. }
    destruct s; try (eapply HG; reflexivity).
    + apply IH. pose proof (map_stable_t_weight l). cbn [weight] in *. lia.
    + apply IH. simpl in *. lia.
Qed.

(** The answers do not depend on the fuel. *)
Lemma is_stable_mono : forall n s c b, is_stable n s c = Answer b -> is_stable (S n) s c = Answer b.
Proof.
  induction n as [|n IH]; intros s c b H; [discriminate|].
  destruct s; cbn [is_stable] in H |- *; auto; try (apply IH; assumption).
  destruct (choose l c); [|discriminate]. now apply IH.
Qed.
Lemma is_stable_mono' : forall n m s c b, n <= m -> is_stable n s c = Answer b -> is_stable m s c = Answer b.
Proof. intros n m s c b H E. induction H; auto. now apply is_stable_mono. Qed.

(** ** is_stable *)

(** Always stable. *)
Lemma always_is_stable : forall n s c b, always_stable s = true -> is_stable n s c = Answer b -> b = true.
Proof.
  induction n as [|n IH]; intros s c b HA H; [discriminate|].
  destruct s; cbn [is_stable] in H; simpl in HA; try congruence; try (eapply IH; eauto; fail).
  destruct (choose l c) as [m|] eqn:E; [|discriminate]. eapply IH; [|exact H].
  eapply (choose_Forall (fun s => always_stable s = true)); [|exact HA | exact E].
  intros l' H'. simpl in H'. rewrite forallb_forall in H'. now apply Forall_forall.
Qed.

(** Without hybrid_adapter, the call does not matter. *)
Lemma free_is_stable : forall n s c d, hybrid_free s -> is_stable n s c = is_stable n s d.
Proof. induction n as [|n IH]; intros s c d H; [reflexivity|]. destruct s; simpl in H |- *; auto. contradiction. Qed.

Lemma same_call : forall n s c d, iterators c = iterators d -> is_stable n s c = is_stable n s d.
Proof.
  induction n as [|n IH]; intros s c d E; [reflexivity|]. destruct s; cbn [is_stable]; auto.
  rewrite (choose_iterators l c d E). destruct (choose l d); auto.
Qed.

Definition bool_of (r : run) : bool := says_stable r || stabilized r.

Lemma stabilize_of : forall r x, stabilize r = Answer x -> bool_of x = true.
Proof. intros [| |r] x H; simpl in H; inversion H. unfold bool_of; simpl. apply orb_true_r. Qed.

Lemma keeps_members : forall l, keeps_choices (Hybrid l) -> Forall keeps_choices l.
Proof. intros l. apply keeps_hybrid. Qed.

Lemma is_stable_exact : forall n s c r, same_choices s c -> runs n s c = Answer r -> exists m, is_stable m s c = Answer (bool_of r).
Proof.
  induction n as [|n IH]; intros s c r HK H; [discriminate|].
  assert (forall s' (d : call), keeps_choices s' \/ iterators d = RandomAccess -> same_choices s' d) as HD by (unfold same_choices; tauto).
  destruct s; cbn [runs] in H.
  - destruct (_ <=? _); inversion H; subst. exists 1. unfold bool_of; simpl. now rewrite orb_false_r.
  - destruct (choose l c) as [m|] eqn:E; [|discriminate].
    assert (same_choices m c) as HM.
    { destruct HK as [HK|HK]; [now left|right]. eapply (choose_Forall keeps_choices); eauto using keeps_members. }
    destruct (IH m c r HM H) as (k & HE). exists (S k). cbn [is_stable]. now rewrite E.
  - destruct (IH s c r HK H) as (k & HE). exists (S k). exact HE.
  - destruct (IH s (Call RandomAccess true) r (or_introl eq_refl) H) as (k & HE). exists (S k). cbn [is_stable]. rewrite <- HE.
    destruct HK as [HK|HK]; [now apply same_call | now apply free_is_stable].
  - destruct (IH s (Call RandomAccess (projected c)) r (or_introl eq_refl) H) as (k & HE). exists (S k). cbn [is_stable]. rewrite <- HE.
    destruct HK as [HK|HK]; [now apply same_call | now apply free_is_stable].
  - assert (forall d, runs n s d = Answer r -> iterators d = RandomAccess \/ d = c -> exists m, is_stable m (Schwartz s) c = Answer (bool_of r)) as HG.
    { intros d Hd HR. destruct (IH s d r) as (k & HE); auto.
      - destruct HR as [HR| ->]; [now left|]. destruct HK as [HK|HK]; [now left | right; now apply free_keeps].
      - exists (S k). cbn [is_stable]. rewrite <- HE. destruct HR as [HR| ->]; auto.
        destruct HK as [HK|HK]; [apply same_call; congruence | now apply free_is_stable]. }
    destruct s; try (destruct (projected c); eapply HG; eauto; fail).
  - exists 1. cbn [is_stable]. f_equal. symmetry. eapply stabilize_of; eauto.
  - exists 1. cbn [is_stable]. f_equal. symmetry.
    assert (match is_stable n s c with Answer true => runs n s c | Answer false => stabilize (runs n s (Call RandomAccess false))
      | IllFormed => IllFormed | NoFuel => NoFuel end = Answer r -> bool_of r = true) as HG.
    { clear H. intros H. destruct (is_stable n s c) as [| |[]] eqn:E; try discriminate; [|eapply stabilize_of; eauto].
      destruct (IH s c r HK H) as (k & HE).
      apply (is_stable_mono' n (n + k)) in E; [|lia]. apply (is_stable_mono' k (n + k)) in HE; [|lia]. congruence. }
    destruct s; auto.
    + assert (same_choices (Hybrid (map stable_t l)) c) as HM.
      { destruct HK as [HK|HK]; [now left|right]. cbn [keeps_choices] in HK. apply keeps_hybrid in HK. apply keeps_hybrid.
        rewrite Forall_map. eapply Forall_impl; [|exact HK]. intros; now apply stable_t_keeps. }
      destruct (IH _ c r HM H) as (k & HE). eapply always_is_stable; [|exact HE].
      simpl. rewrite forallb_forall. intros x Hx. apply in_map_iff in Hx as (y & <- & _). apply stable_t_stable.
    + destruct (IH (StableAdapter s) c r HK H) as (k & HE). destruct k; [discriminate|]. cbn [is_stable] in HE. congruence.
Qed.

Lemma bool_of_spec : forall r, bool_of r = true <-> stable_run r.
Proof. intros r. unfold bool_of, stable_run. apply orb_true_iff. Qed.

Lemma is_stable_tells : forall s c r, same_choices s c -> runs (weight s) s c = Answer r ->
  exists b, is_stable (weight s) s c = Answer b /\ (b = true <-> stable_run r).
Proof.
  intros s c r HK H. destruct (is_stable_exact _ s c r HK H) as (m & HE). exists (bool_of r). split; [|apply bool_of_spec].
  pose proof (is_stable_fuel (weight s) s c (le_n _)) as HF.
  destruct (is_stable (weight s) s c) as [| |b] eqn:E; [congruence| |].
  - exfalso. assert (forall n s c, is_stable n s c = IllFormed -> is_stable (S n) s c = IllFormed) as HM.
    { clear. induction n as [|n IH]; intros s c H; [discriminate|]. destruct s; cbn [is_stable] in H |- *; auto; try discriminate; try (apply IH; assumption).
      destruct (choose l c); auto. now apply IH. }
    assert (forall k, is_stable (k + weight s) s c = IllFormed) as HI by (induction k as [|k IHk]; [exact E | change (S k + weight s) with (S (k + weight s)); now apply HM]).
    apply (is_stable_mono' m (m + weight s)) in HE; [|lia]. rewrite HI in HE. discriminate.
  - apply (is_stable_mono' m (m + weight s)) in HE; [|lia]. apply (is_stable_mono' (weight s) (m + weight s)) in E; [|lia]. congruence.
Qed.

Lemma stable_always : forall s c r, same_choices s c -> always_stable s = true -> runs (weight s) s c = Answer r -> stable_run r.
Proof.
  intros s c r HK HA H. destruct (is_stable_tells s c r HK H) as (b & E & HB). apply HB. eapply always_is_stable; eauto.
Qed.

(** ** The sequence *)

Lemma adapter_type_leaves : forall s, leaves (adapter_type s) = leaves s.
Proof. induction s; simpl; auto; match goal with |- context [if ?b then _ else _] => destruct b end; auto. Qed.
Lemma stable_t_leaves : forall s, leaves (stable_t s) = leaves s.
Proof.
  intros s. unfold stable_t. destruct (always_stable s); [|apply adapter_type_leaves]. destruct s; auto. simpl. apply adapter_type_leaves.
Qed.

Lemma members_leaves : forall s, flat_map leaves (members s) = leaves s.
Proof.
  induction s as [| l IH | | | | | |] using sorter_rect'; simpl; rewrite ?app_nil_r; auto.
  induction IH as [|s l H HF IH2]; simpl; auto. now rewrite flat_map_app, H, IH2.
Qed.
Lemma choose_leaves : forall l c m, choose l c = Some m -> incl (leaves m) (leaves (Hybrid l)).
Proof.
  intros l c m E x Hx. unfold choose in E. destruct (hybrid_dispatch _ _) as [i|]; [|discriminate].
  apply nth_error_In in E. rewrite <- members_leaves. apply in_flat_map. exists m. split; auto.
Qed.

Lemma stabilize_ran : forall o r, stabilize o = Answer r -> exists r', o = Answer r' /\ ran r' = ran r /\ says_stable r' = says_stable r /\ stabilized r = true.
Proof. intros [| |r'] r H; simpl in H; inversion H; subst. exists r'. auto. Qed.

Lemma runs_leaves : forall n s c r, runs n s c = Answer r -> In (ran r, says_stable r) (leaves s).
Proof.
  induction n as [|n IH]; intros s c r H; [discriminate|].
  assert (forall s d, stabilize (runs n s d) = Answer r -> In (ran r, says_stable r) (leaves s)) as HS.
  { intros s' d E. apply stabilize_ran in E as (r' & E & <- & <- & _). eapply IH; eauto. }
  destruct s; cbn [runs] in H; cbn [leaves]; try (eapply IH; eassumption).
  - destruct (_ <=? _); inversion H. simpl. auto.
  - destruct (choose l c) as [m|] eqn:E; [|discriminate]. apply IH in H. eapply choose_leaves in H; eauto.
  - destruct s; try (destruct (projected c); eapply IH; eassumption).
  - eauto.
  - assert (match is_stable n s c with Answer true => runs n s c | Answer false => stabilize (runs n s (Call RandomAccess false))
      | IllFormed => IllFormed | NoFuel => NoFuel end = Answer r -> In (ran r, says_stable r) (leaves s)) as HG.
    { clear H. intros H. destruct (is_stable n s c) as [| |[]]; try discriminate; eauto. }
    destruct s; auto.
    + apply IH in H. cbn [leaves] in H |- *. apply in_flat_map in H as (x & Hx & H). apply in_map_iff in Hx as (y & <- & Hy).
      rewrite stable_t_leaves in H. apply in_flat_map. eauto.
    + apply IH in H. exact H.
Qed.

Lemma by_position_eq : forall A (lt : A -> A -> bool) x y, by_position lt x y = stable_compare lt (fun a => a) x y.
Proof. intros A lt [a i] [b j]. unfold by_position, stable_compare. simpl. destruct (lt a b), (lt b a); auto. Qed.

Lemma swo_ext : forall A (f g : A -> A -> bool), (forall x y, f x y = g x y) -> strict_weak_order g -> strict_weak_order f.
Proof.
  intros A f g E H. destruct H as [H1 H2 H3]. constructor; intros *; rewrite ?E; eauto.
Qed.

Lemma after_stable : forall alg s r A (lt : A -> A -> bool) l, honest alg s -> In (ran r, says_stable r) (leaves s) -> stable_run r ->
  strict_weak_order lt -> is_stable_sorting_of lt l (after alg r lt l).
Proof.
  intros alg s r A lt l [HA HB] HI HS HW. unfold after. destruct (stabilized r) eqn:E.
  - pose proof (stable_compare_swo lt (fun a : A => a) HW) as HW'.
    apply (stable_compare_sorting lt (fun a : A => a) HW).
    assert (strict_weak_order (by_position lt)) as HP by (eapply swo_ext; [apply by_position_eq | exact HW']).
    destruct (HA (ran r) _ (by_position lt) (combine l (seq 0 (length l))) HP) as [H1 H2]. split; auto.
    intros i j x y Hij Hi Hj. rewrite <- by_position_eq. eapply H2; eauto.
  - destruct HS as [HS|HS]; [|congruence]. rewrite HS in HI. now apply HB.
Qed.

(** A sorter that is not stable, and one that is. *)
Definition two_sorters (name : nat) : algorithm := fun A lt l => match name with 0 => ssort lt (rev l) | _ => ssort lt l end.
Lemma two_sorters_honest : forall s, (forall b, In (0, b) (leaves s) -> b = false) -> honest two_sorters s.
Proof.
  intros s H. split.
  - intros [|name] A lt l HW; simpl.
    + destruct (ssort_stable lt HW (rev l)) as (H1 & H2 & _). split; auto. rewrite <- H1. apply Permutation.Permutation_rev.
    + destruct (ssort_stable lt HW l) as (H1 & H2 & _). split; auto.
  - intros [|name] HI A lt l HW; [apply H in HI; discriminate|]. now apply ssort_stable.
Qed.

(** One step of [runs]. *)
Definition by_stability (g : sorter -> call -> outcome run) (j : sorter -> call -> outcome bool) (s : sorter) (c : call) : outcome run :=
  match j s c with
  | Answer true => g s c
  | Answer false => stabilize (g s (Call RandomAccess false))
  | IllFormed => IllFormed
  | NoFuel => NoFuel
  end.
Definition run_step (g : sorter -> call -> outcome run) (j : sorter -> call -> outcome bool) (s : sorter) (c : call) : outcome run :=
  match s with
  | Leaf k b name => if category_value k <=? category_value (iterators c) then Answer (Run name b false) else IllFormed
  | Hybrid l => match choose l c with Some m => g m c | None => IllFormed end
  | Counting s => g s c
  | Indirect s => g s (Call RandomAccess true)
  | OutOfPlace s => g s (Call RandomAccess (projected c))
  | Schwartz (Schwartz s) => g (Schwartz s) c
  | Schwartz s => if projected c then g s (Call RandomAccess true) else g s c
  | MakeStable s => stabilize (g s (Call RandomAccess false))
  | StableAdapter (StableAdapter s) => g (StableAdapter s) c
  | StableAdapter (Hybrid l) => g (Hybrid (map stable_t l)) c
  | StableAdapter s => by_stability g j s c
  end.
Lemma runs_step : forall n s c, runs (S n) s c = run_step (runs n) (is_stable n) s c.
Proof. intros n s c. destruct s; try reflexivity; destruct s; reflexivity. Qed.

Lemma runs_mono : forall n s c, runs n s c <> NoFuel -> runs (S n) s c = runs n s c.
Proof.
  assert (forall n s c, is_stable n s c <> NoFuel -> is_stable (S n) s c = is_stable n s c) as HM.
  { induction n as [|n IH]; intros s c H; [now contradict H|].
    destruct s; cbn [is_stable] in H; (rewrite <- (IH s c) in H |- * || idtac); try reflexivity; try (change (is_stable (S n) s c = is_stable n s c); auto).
    change (match choose l c with Some m => is_stable (S n) m c | None => IllFormed end = match choose l c with Some m => is_stable n m c | None => IllFormed end).
    destruct (choose l c); auto. }
  induction n as [|n IH]; intros s c H; [now contradict H|].
  rewrite (runs_step (S n)). rewrite runs_step in H |- *. specialize (HM n).
  revert IH HM H. generalize (runs (S n)) (is_stable (S n)) (runs n) (is_stable n). clear n. intros f i g j IH HM H.
  destruct s; cbn [run_step] in H |- *; auto.
  - destruct (choose l c); auto.
  - destruct s; try (destruct (projected c); apply IH, H).
  - rewrite IH; auto. intros E. now rewrite E in H.
  - assert (by_stability f i s c = by_stability g j s c \/ by_stability g j s c = NoFuel) as HG.
    { unfold by_stability. destruct (j s c) as [| |b] eqn:E; [now right| |]; rewrite HM, E by congruence; auto.
      destruct b.
      - destruct (g s c) eqn:E2; [now right| |]; left; rewrite IH, E2; congruence.
      - destruct (g s (Call RandomAccess false)) eqn:E2; [now right| |]; left; rewrite IH, E2; congruence. }
    destruct s; auto; destruct HG as [HG|HG]; congruence.
Qed.

Lemma runs_enough : forall n m s c, weight s <= n -> n <= m -> runs m s c = runs n s c.
Proof.
  intros n m s c HW H. induction H as [|m H IH]; auto. rewrite runs_mono; auto. apply runs_fuel. lia.
Qed.

Lemma nested_stable_adapters : forall s c, runs (weight (StableAdapter (StableAdapter s))) (StableAdapter (StableAdapter s)) c =
  runs (weight (StableAdapter s)) (StableAdapter s) c.
Proof.
  intros s c. pose proof (weight_pos s) as H.
  destruct (weight (StableAdapter (StableAdapter s))) as [|n] eqn:E; [simpl in E; lia|].
  cbn [runs]. apply runs_enough; auto. simpl in E |- *. lia.
Qed.

(** ** What a hybrid_adapter runs *)

Lemma hybrid_category : forall l,
  (forall s, In s l -> category_value (iterator_category (Hybrid l)) <= category_value (iterator_category s)) /\
  (l <> [] -> exists s, In s l /\ iterator_category (Hybrid l) = iterator_category s).
Proof.
  induction l as [|s l [IH1 IH2]]; [split; [intros s []|congruence]|].
  assert (iterator_category (Hybrid (s :: l)) = weaker (iterator_category s) (iterator_category (Hybrid l))) as E by reflexivity.
  rewrite E. unfold weaker. destruct (category_value (iterator_category s) <=? category_value (iterator_category (Hybrid l))) eqn:H.
  - apply Nat.leb_le in H. split; [|intros _; exists s; simpl; auto]. intros t [<-|Ht]; auto. specialize (IH1 t Ht). lia.
  - apply Nat.leb_gt in H. split; [intros t [<-|Ht]; auto; lia|]. intros _.
    destruct l as [|t l]; [simpl in H; destruct (iterator_category s); simpl in H; lia|].
    destruct IH2 as (u & Hu & HE); [discriminate|]. exists u. split; [now right | auto].
Qed.

Lemma hybrid_runs : forall l c, match choose l c with
  | Some m => runs (weight (Hybrid l)) (Hybrid l) c = runs (weight m) m c /\ exists i, nth_error (flat_map members l) i = Some m /\
      category_value (iterator_category m) <= category_value (iterators c) /\
      forall j m', nth_error (flat_map members l) j = Some m' -> category_value (iterator_category m') <= category_value (iterators c) -> j <> i ->
        category_value (iterator_category m') < category_value (iterator_category m) \/ (iterator_category m' = iterator_category m /\ i < j)
  | None => runs (weight (Hybrid l)) (Hybrid l) c = IllFormed /\
      forall m, In m (flat_map members l) -> category_value (iterators c) < category_value (iterator_category m)
  end.
Proof.
  intros l c. destruct (choose l c) as [m|] eqn:E.
  - split.
    + pose proof (choose_weight l c m E) as HW. destruct (weight (Hybrid l)) as [|n] eqn:En; [lia|]. cbn [runs]. rewrite E. apply runs_enough; lia.
    + unfold choose in E. destruct (hybrid_dispatch _ _) as [i|] eqn:D; [|discriminate]. exists i. split; auto.
      apply hybrid_dispatch_some in D as (k & [D1 D2] & D3). rewrite nth_error_map, E in D1. inversion D1; subst k. split; auto.
      intros j m' Hj Hc Hij. apply (D3 j (iterator_category m')); auto. split; auto. now rewrite nth_error_map, Hj.
  - split; [cbn [weight runs]; now rewrite E|]. intros m Hm. unfold choose in E.
    destruct (hybrid_dispatch _ _) as [i|] eqn:D.
    + apply hybrid_dispatch_some in D as (k & [D1 D2] & D3). rewrite nth_error_map, E in D1. discriminate.
    + rewrite hybrid_dispatch_none in D. apply In_nth_error in Hm as (i & Hi). apply Nat.lt_nge. intros H.
      apply (D i (iterator_category m)). split; auto. now rewrite nth_error_map, Hi.
Qed.
