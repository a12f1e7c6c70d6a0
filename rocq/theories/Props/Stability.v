(** C80: is_stable and stable_t over nested adapters. *)
From Coq Require Import List Bool Arith Lia.
From Verif Require Import Spec.Order Model.Adapters Model.Stability Spec.Stability Proofs.OrderLib Proofs.Stability.
Import ListNotations.

(** The model answers. *)
Theorem C80_fuel_suffices :
  forall (s : sorter) (c : call) (n : nat), weight s <= n -> is_stable n s c <> NoFuel /\ runs n s c <> NoFuel.
Proof. intros s c n H. split; [now apply is_stable_fuel | now apply runs_fuel]. Qed.
Print Assumptions C80_fuel_suffices.

(** is_stable says whether what the call runs is stable, if the iterators are random-access ones, or if no hybrid_adapter is below an adapter that changes
    the category of the iterators. *)
Theorem C80_is_stable_tells_partial :
  forall (s : sorter) (c : call) (r : run), same_choices s c -> runs (weight s) s c = Answer r ->
    exists b, is_stable (weight s) s c = Answer b /\ (b = true <-> stable_run r).
Proof. exact is_stable_tells. Qed.
Print Assumptions C80_is_stable_tells_partial.

(** Then a call that is_stable calls stable sorts the sequence stably; so does every call of a stable_adapter, and of any sorter that is always stable. *)
Theorem C80_stable_calls_sort_stably_partial :
  forall (alg : nat -> algorithm) (s : sorter) (c : call) (r : run), honest alg s -> same_choices s c -> runs (weight s) s c = Answer r ->
    is_stable (weight s) s c = Answer true \/ always_stable s = true ->
    forall (A : Type) (lt : A -> A -> bool) (l : list A), strict_weak_order lt -> is_stable_sorting_of lt l (after alg r lt l).
Proof.
  intros alg s c r HA HK HR HS A lt l HW. eapply after_stable; eauto using runs_leaves.
  destruct HS as [HS|HS]; [|eapply stable_always; eauto].
  destruct (is_stable_tells s c r HK HR) as (b & E & HB). apply HB. congruence.
Qed.
Print Assumptions C80_stable_calls_sort_stably_partial.

Theorem C80_stable_adapter_sorts_stably_partial :
  forall (alg : nat -> algorithm) (s t : sorter) (c : call) (r : run), t = StableAdapter s \/ t = stable_t s ->
    honest alg s -> same_choices s c -> runs (weight t) t c = Answer r ->
    forall (A : Type) (lt : A -> A -> bool) (l : list A), strict_weak_order lt -> is_stable_sorting_of lt l (after alg r lt l).
Proof.
  intros alg s t c r HT [H1 H2] HK HR. apply C80_stable_calls_sort_stably_partial with t c; auto.
  - split; auto. destruct HT as [-> | ->]; [exact H2 | now rewrite stable_t_leaves].
  - destruct HK as [HK|HK]; [now left|right]. destruct HT as [-> | ->]; [exact HK | now apply stable_t_keeps].
  - right. destruct HT as [-> | ->]; [reflexivity | apply stable_t_stable].
Qed.
Print Assumptions C80_stable_adapter_sorts_stably_partial.

(** stable_t is always stable, does nothing to its own results, leaves alone what is always stable and not a stable_adapter, and removes nested
    stable_adapters, and stable_adapter around what is always stable unless it is a hybrid_adapter. *)
Theorem C80_stable_t :
  forall s : sorter,
    always_stable (stable_t s) = true /\ stable_t (stable_t s) = stable_t s /\
    stable_t (StableAdapter (StableAdapter s)) = stable_t (StableAdapter s) /\
    (always_stable s = true -> (forall s', s <> StableAdapter s') -> stable_t s = s) /\
    (always_stable s = false -> stable_t s = StableAdapter s) /\
    (always_stable s = true -> (forall s', s <> StableAdapter s') -> (forall l, s <> Hybrid l) -> stable_t (StableAdapter s) = s) /\
    (forall l, s = Hybrid l -> stable_t (StableAdapter s) = StableAdapter s).
Proof.
  intros s. split; [apply stable_t_stable|]. split; [apply stable_t_idempotent|]. split; [reflexivity|]. unfold stable_t. repeat split.
  - intros -> H. destruct s; auto. now destruct (H s).
  - intros E. rewrite E. destruct s; auto; simpl in E |- *; try (rewrite E; reflexivity); discriminate.
  - intros E H1 H2. destruct s; simpl in E |- *; rewrite ?E; auto; [now destruct (H2 l) | now destruct (H1 s)].
  - intros l ->. reflexivity.
Qed.
Print Assumptions C80_stable_t.

(** A stable_adapter around a stable_adapter runs what the inner one runs. *)
Theorem C80_nested_stable_adapters :
  forall (s : sorter) (c : call), runs (weight (StableAdapter (StableAdapter s))) (StableAdapter (StableAdapter s)) c =
                                  runs (weight (StableAdapter s)) (StableAdapter s) c.
Proof. exact nested_stable_adapters. Qed.
Print Assumptions C80_nested_stable_adapters.

(** A hybrid_adapter needs the weakest category among its sorters. *)
Theorem C80_hybrid_category :
  forall l : list sorter,
    (forall s, In s l -> category_value (iterator_category (Hybrid l)) <= category_value (iterator_category s)) /\
    (l <> [] -> exists s, In s l /\ iterator_category (Hybrid l) = iterator_category s).
Proof. exact hybrid_category. Qed.
Print Assumptions C80_hybrid_category.

(** It runs one of those sorters, that accepts the iterators and needs a category at least as strong as those of the others that do; it fails to compile
    only if none does. *)
Theorem C80_hybrid_runs :
  forall (l : list sorter) (c : call),
    (exists m, flattened (Hybrid l) m /\ runs (weight (Hybrid l)) (Hybrid l) c = runs (weight m) m c /\
       category_value (iterator_category m) <= category_value (iterators c) /\
       forall m', flattened (Hybrid l) m' -> category_value (iterator_category m') <= category_value (iterators c) ->
         category_value (iterator_category m') <= category_value (iterator_category m)) \/
    (runs (weight (Hybrid l)) (Hybrid l) c = IllFormed /\
       forall m, flattened (Hybrid l) m -> category_value (iterators c) < category_value (iterator_category m)).
Proof.
  intros l c.
  assert (forall s m, flattened s m <-> In m (members s)) as HF.
  { intros s m. split.
    - induction 1 as [s H | l' s m H1 H2 IH]; [destruct s; simpl; auto; now destruct (H l0) | simpl; apply in_flat_map; eauto].
    - revert m. induction s as [| l' IH | | | | | |] using sorter_rect'; intros m H; simpl in H; try (destruct H as [<-|[]]; constructor; discriminate).
      apply in_flat_map in H as (s & Hs & H). rewrite Forall_forall in IH. eapply flattened_inside; eauto. }
  pose proof (hybrid_runs l c) as H. destruct (choose l c) as [m|].
  - left. destruct H as (HR & i & Hi & HC & HB). exists m. split; [apply HF; simpl; eapply nth_error_In; eauto|]. split; auto. split; auto.
    intros m' Hm' HC'. apply HF in Hm'. simpl in Hm'. apply In_nth_error in Hm' as (j & Hj).
    destruct (Nat.eq_dec j i) as [->|HN]; [rewrite Hi in Hj; inversion Hj; auto|]. destruct (HB j m' Hj HC' HN) as [HB'|[HB' _]]; [lia | now rewrite HB'].
  - right. destruct H as [HR HB]. split; auto. intros m Hm. apply HB. apply HF in Hm. exact Hm.
Qed.
Print Assumptions C80_hybrid_runs.

(** Without the condition on the choices: with bidirectional iterators, is_stable asks hybrid_adapter<heap_sorter, insertion_sorter> about those iterators,
    and it would run insertion_sorter; but indirect_adapter, out_of_place_adapter, and schwartz_adapter with a projection give it random-access iterators, and
    it runs heap_sorter.  stable_adapter believes is_stable, and so its result is not stable. *)
Theorem C80_is_stable_tells_refuted :
  let hybrid := Hybrid [Leaf RandomAccess false 0; Leaf Forward true 1] in
  forall adapter, adapter = Indirect \/ adapter = OutOfPlace \/ adapter = Schwartz ->
    let s := adapter hybrid in let c := Call Bidirectional true in
    is_stable (weight s) s c = Answer true /\
    runs (weight s) s c = Answer (Run 0 false false) /\
    runs (weight (StableAdapter s)) (StableAdapter s) c = Answer (Run 0 false false) /\
    exists alg, honest alg s /\
      exists (A : Type) (lt : A -> A -> bool) (l : list A), strict_weak_order lt /\ ~ is_stable_sorting_of lt l (after alg (Run 0 false false) lt l).
Proof.
  intros hybrid adapter HA. cbv zeta.
  assert (honest two_sorters (adapter hybrid)) as HH.
  { apply two_sorters_honest. intros b H. destruct HA as [->|[->| ->]]; simpl in H; intuition congruence. }
  split; [destruct HA as [->|[->| ->]]; reflexivity|]. split; [destruct HA as [->|[->| ->]]; reflexivity|].
  split; [destruct HA as [->|[->| ->]]; reflexivity|]. exists two_sorters. split; auto.
  exists bool, (fun _ _ => false), [true; false]. split; [constructor; auto; discriminate|].
  intros (_ & _ & H). specialize (H true). simpl in H. discriminate.
Qed.
Print Assumptions C80_is_stable_tells_refuted.

(** indirect_adapter<pdq_sorter> sorts through forward iterators, and so does indirect_adapter<hybrid_adapter<pdq_sorter>>; but is_stable does not compile
    for the second one, and neither does a call of stable_adapter around it. *)
Theorem C80_is_stable_compiles_refuted :
  let s := Indirect (Hybrid [Leaf RandomAccess false 0]) in let c := Call Forward false in
  runs (weight s) s c = Answer (Run 0 false false) /\ is_stable (weight s) s c = IllFormed /\
  runs (weight (StableAdapter s)) (StableAdapter s) c = IllFormed.
Proof. repeat split; reflexivity. Qed.
Print Assumptions C80_is_stable_compiles_refuted.

(** counting_adapter<hybrid_adapter<heap_sorter, hybrid_adapter<quick_sorter, insertion_sorter>>>: the category of the iterators decides. *)
Example C80_case :
  let s := Counting (Hybrid [Leaf RandomAccess false 0; Hybrid [Leaf Bidirectional true 1; Leaf Forward false 2]]) in
  (forall c, same_choices s c) /\ honest two_sorters s /\
  runs (weight s) s (Call RandomAccess false) = Answer (Run 0 false false) /\ is_stable (weight s) s (Call RandomAccess false) = Answer false /\
  runs (weight s) s (Call Bidirectional true) = Answer (Run 1 true false) /\ is_stable (weight s) s (Call Bidirectional true) = Answer true /\
  stable_t s = StableAdapter s /\ runs (weight (StableAdapter s)) (StableAdapter s) (Call RandomAccess false) = Answer (Run 0 false true) /\
  runs (weight (StableAdapter s)) (StableAdapter s) (Call Bidirectional false) = Answer (Run 1 true false) /\
  stable_t (Hybrid [Leaf RandomAccess true 3; Leaf Forward true 4]) = Hybrid [Leaf RandomAccess true 3; Leaf Forward true 4] /\
  after two_sorters (Run 0 false true) (fun x y => x / 10 <? y / 10) [21; 10; 20; 11] = [10; 11; 21; 20] /\
  after two_sorters (Run 0 false false) (fun x y => x / 10 <? y / 10) [21; 10; 20; 11] = [11; 10; 20; 21].
Proof.
  cbv zeta. split; [right; cbn; tauto|]. split; [|repeat split; reflexivity].
  apply two_sorters_honest. intros b H. simpl in H. intuition congruence.
Qed.
