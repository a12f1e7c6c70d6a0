(** C44, C45, C46, C47, C48, C58: the adapters.

    The adapted sorter is any function which sorts whenever the comparison it is given is a strict weak order. *)
From Coq Require Import List Arith Permutation Lia.
From Verif Require Import Spec.Order Lang.Mem Spec.Sorts Model.Adapters Model.Heap Model.Insertion
  Proofs.OrderLib Proofs.Wp Proofs.Indirect Proofs.Adapters Proofs.Insertion Proofs.Heap Proofs.Examples.
Import ListNotations.

(** ** C44 *)

(** [calls] is the list of the elements passed to the projection. *)
Theorem C44_schwartz_adapter_sorts :
  forall (A T : Type) (comp : T -> T -> bool) (proj : A -> T)
      (inner : (T -> T -> bool) -> (A * T -> T) -> range_prog (A * T)),
    strict_weak_order comp ->
    (forall c p, strict_weak_order c -> sorts (by_proj c p) (inner c p)) ->
    forall pre xs post, exists calls ys,
      sort_with_schwartz inner comp proj (length pre) (length xs) (pre ++ map Val xs ++ post)
        = Ok calls (pre ++ map Val ys ++ post)
      /\ calls = xs /\ is_sorting_of (by_proj comp proj) xs ys.
Proof.
  intros A T comp proj inner HC HI pre xs post.
  assert (wp (sort_with_schwartz inner comp proj (length pre) (length xs))
    (fun calls m => exists ys, m = pre ++ map Val ys ++ post /\ calls = xs /\ is_sorting_of (by_proj comp proj) xs ys)
    (pre ++ map Val xs ++ post)) as H.
  { eapply schwartz_wp with (R := is_sorting_of (by_proj comp snd)).
    - intros v v' []; auto.
    - now apply HI.
    - intros v Hv. exists (map fst v). split; [reflexivity|]. split; [reflexivity|]. now apply schwartz_sorting. }
  apply wp_ok in H as (calls & m & E & ys & -> & H). eauto.
Qed.
Print Assumptions C44_schwartz_adapter_sorts.

Theorem C44_schwartz_adapter_sorts_stably :
  forall (A T : Type) (comp : T -> T -> bool) (proj : A -> T)
      (inner : (T -> T -> bool) -> (A * T -> T) -> range_prog (A * T)),
    strict_weak_order comp ->
    (forall c p, strict_weak_order c -> sorts_stably (by_proj c p) (inner c p)) ->
    forall pre xs post, exists calls ys,
      sort_with_schwartz inner comp proj (length pre) (length xs) (pre ++ map Val xs ++ post)
        = Ok calls (pre ++ map Val ys ++ post)
      /\ calls = xs /\ is_stable_sorting_of (by_proj comp proj) xs ys.
Proof.
  intros A T comp proj inner HC HI pre xs post.
  assert (wp (sort_with_schwartz inner comp proj (length pre) (length xs))
    (fun calls m => exists ys, m = pre ++ map Val ys ++ post /\ calls = xs /\ is_stable_sorting_of (by_proj comp proj) xs ys)
    (pre ++ map Val xs ++ post)) as H.
  { eapply schwartz_wp with (R := is_stable_sorting_of (by_proj comp snd)).
    - intros v v' []; auto.
    - now apply HI.
    - intros v Hv. exists (map fst v). split; [reflexivity|]. split; [reflexivity|]. now apply schwartz_stable_sorting. }
  apply wp_ok in H as (calls & m & E & ys & -> & H). eauto.
Qed.
Print Assumptions C44_schwartz_adapter_sorts_stably.

(** What justifies running the adapted sorter on a memory of pairs: reading, moving from, assigning, moving and
    swapping associations, element and associated data, does what the same operation does on the memory of pairs
    [z], and touches nothing else in the collection. *)
Theorem C44_associations_behave_as_pairs :
  forall (A D : Type) (first : nat) (s : mem A * mem D) (z : mem (A * D)),
    assoc_rel first s z ->
    (forall k e z', get k z = Ok e z' -> exists s',
       assoc_get first k s = AOk e s' /\ assoc_rel first s' z' /\ same_out first (first + length z) (fst s) (fst s')) /\
    (forall k e z', take k z = Ok e z' -> exists s',
       assoc_take first k s = AOk e s' /\ assoc_rel first s' z' /\ same_out first (first + length z) (fst s) (fst s')) /\
    (forall k e u z', put k e z = Ok u z' -> exists v s',
       assoc_put first k e s = AOk v s' /\ assoc_rel first s' z' /\ same_out first (first + length z) (fst s) (fst s')) /\
    (forall i j u z', move_to i j z = Ok u z' -> exists v s',
       assoc_move_to first i j s = AOk v s' /\ assoc_rel first s' z' /\ same_out first (first + length z) (fst s) (fst s')) /\
    (forall i j u z', swap i j z = Ok u z' -> exists v s',
       assoc_swap first i j s = AOk v s' /\ assoc_rel first s' z' /\ same_out first (first + length z) (fst s) (fst s')).
Proof.
  intros A D first s z HR. repeat split.
  - intros k e z' E. destruct (assoc_get_sim first k s z e z' HR E) as (x & s' & H1 & -> & H2 & H3). eauto.
  - intros k e z' E. destruct (assoc_take_sim first k s z e z' HR E) as (x & s' & H1 & -> & H2 & H3). eauto.
  - intros k e u z' E. destruct (assoc_put_sim first k e s z u z' HR E) as (x & s' & H1 & _ & H2 & H3). eauto.
  - intros i j u z' E. destruct (assoc_move_to_sim first i j s z u z' HR E) as (x & s' & H1 & _ & H2 & H3). eauto.
  - intros i j u z' E. destruct (assoc_swap_sim first i j s z u z' HR E) as (x & s' & H1 & _ & H2 & H3). eauto.
Qed.
Print Assumptions C44_associations_behave_as_pairs.

Example C44_case :
  (forall c p, strict_weak_order c -> sorts_stably (by_proj c p) (@insertion_sorter (nat * nat) nat c p)) /\
  sort_with_schwartz (@insertion_sorter _ _) Nat.ltb (fun x : nat => x mod 3) 1 5 (map Val [9; 4; 2; 5; 3; 1; 0])
    = Ok [4; 2; 5; 3; 1] (map Val [9; 3; 4; 1; 2; 5; 0]) /\
  assoc_rel 1 (map Val [9; 4; 2; 5], map Val [true; false]) (map Val [(4, true); (2, false)]) /\
  assoc_swap 1 0 1 (map Val [9; 4; 2; 5], map Val [true; false])
    = AOk (tt, tt) (map Val [9; 2; 4; 5], map Val [false; true]).
Proof.
  split; [intros; now apply insertion_sorts_stably|]. split; [vm_compute; reflexivity|]. split; [|reflexivity].
  split; [reflexivity|]. intros [|[|[|k]]] c H; inversion H; subst; split; reflexivity.
Qed.

(** ** C45 *)
Theorem C45_make_stable_sorts_stably :
  forall (A T : Type) (comp : T -> T -> bool) (proj : A -> T)
      (inner : (A * nat -> A * nat -> bool) -> range_prog (A * nat)),
    strict_weak_order comp ->
    (forall c, strict_weak_order c -> sorts c (inner c)) ->
    sorts_stably (by_proj comp proj) (make_stable inner comp proj).
Proof. intros. now apply make_stable_sorts. Qed.
Print Assumptions C45_make_stable_sorts_stably.

(** stable_adapter, whatever the answer of the is_stable trait as long as it is right. *)
Theorem C45_stable_adapter_sorts_stably :
  forall (A T : Type) (comp : T -> T -> bool) (proj : A -> T) (is_stable : bool)
      (sorter : (T -> T -> bool) -> (A -> T) -> range_prog A)
      (inner : (A * nat -> A * nat -> bool) -> range_prog (A * nat)),
    strict_weak_order comp ->
    (is_stable = true -> forall c p, strict_weak_order c -> sorts_stably (by_proj c p) (sorter c p)) ->
    (is_stable = false -> forall c, strict_weak_order c -> sorts c (inner c)) ->
    sorts_stably (by_proj comp proj) (stable_adapter is_stable sorter inner comp proj).
Proof.
  intros A T comp proj [|] sorter inner HC H1 H2; unfold stable_adapter.
  - now apply H1.
  - now apply make_stable_sorts; auto.
Qed.
Print Assumptions C45_stable_adapter_sorts_stably.

(** The comparison given to the adapted sorter is a strict weak order in which distinct positions are never
    equivalent. *)
Theorem C45_stable_compare_total :
  forall (A T : Type) (comp : T -> T -> bool) (proj : A -> T),
    strict_weak_order comp ->
    strict_weak_order (stable_compare comp proj) /\
    forall x y : A * nat, snd x <> snd y -> equivalent (stable_compare comp proj) x y = false.
Proof.
  intros A T comp proj HC. split; [now apply stable_compare_swo|].
  intros x y Hne. unfold equivalent.
  destruct (stable_compare comp proj x y) eqn:E1; [reflexivity|].
  destruct (stable_compare comp proj y x) eqn:E2; [reflexivity|]. exfalso.
  unfold stable_compare in E1, E2.
  destruct (comp (proj (fst x)) (proj (fst y))); [discriminate|].
  destruct (comp (proj (fst y)) (proj (fst x))); [discriminate|].
  apply Nat.ltb_ge in E1, E2. lia.
Qed.
Print Assumptions C45_stable_compare_total.

(** heap_sorter is not stable, but is made so. *)
Example C45_case :
  (forall c, strict_weak_order c -> sorts c (@heap_sorter (nat * nat * nat) _ c (fun x => x))) /\
  @heap_sorter (nat * nat) nat Nat.ltb fst 0 3 (map Val [(1, 0); (1, 1); (1, 2)])
    = Ok tt (map Val [(1, 2); (1, 0); (1, 1)]) /\
  make_stable (fun c => @heap_sorter _ _ c (fun x => x)) Nat.ltb fst 0 4 (map Val [(1, 0); (0, 1); (1, 2); (0, 3)])
    = Ok tt (map Val [(0, 1); (0, 3); (1, 0); (1, 2)]).
Proof.
  split; [|split; vm_compute; reflexivity].
  intros c Hc. exact (heap_sorts c (fun x => x) Hc).
Qed.

(** ** C46 *)
Theorem C46_out_of_place_adapter_sorts :
  forall (A : Type) (lt : A -> A -> bool) (sorter : range_prog A),
    sorts lt sorter -> sorts lt (sort_out_of_place sorter).
Proof.
  intros A lt sorter H. apply (sort_out_of_place_runs (is_sorting_of lt)); auto. intros v v' []; auto.
Qed.
Print Assumptions C46_out_of_place_adapter_sorts.

Theorem C46_out_of_place_adapter_sorts_stably :
  forall (A : Type) (lt : A -> A -> bool) (sorter : range_prog A),
    sorts_stably lt sorter -> sorts_stably lt (sort_out_of_place sorter).
Proof.
  intros A lt sorter H. apply (sort_out_of_place_runs (is_stable_sorting_of lt)); auto. intros v v' []; auto.
Qed.
Print Assumptions C46_out_of_place_adapter_sorts_stably.

Theorem C46_out_of_place_adapter_permutes :
  forall (A : Type) (sorter : range_prog A), permutes sorter -> permutes (sort_out_of_place sorter).
Proof. intros A sorter H. apply (sort_out_of_place_runs (@Permutation A)); auto. Qed.
Print Assumptions C46_out_of_place_adapter_permutes.

Example C46_case :
  sorts_stably (by_proj Nat.ltb fst) (@insertion_sorter (nat * nat) nat Nat.ltb fst) /\
  sort_out_of_place (@insertion_sorter (nat * nat) nat Nat.ltb fst) 1 5
      (map Val [(9, 9); (2, 0); (1, 1); (2, 2); (0, 3); (8, 8)])
    = Ok tt (map Val [(9, 9); (0, 3); (1, 1); (2, 0); (2, 2); (8, 8)]).
Proof. split; [apply insertion_sorts_stably, nat_ltb_swo|vm_compute; reflexivity]. Qed.

(** ** C47 *)

(** Any sorter, seen as the calls it makes, with any comparison and projection, even stateful ones:
    [executes comp proj sorter s es x s'] says that the execution makes the calls [es]. *)
Theorem C47_counting_adapter_counts :
  forall (A T X S : Type) (comp : comparison S) (proj : projection S) (sorter : prog A T X) (s : S) es x s',
    executes comp proj sorter s es x s' ->
    counting_adapter sorter comp proj s = (x, s', length (filter is_compare es)).
Proof.
  intros A T X S comp proj sorter s es x s' H. unfold counting_adapter. now rewrite (counting_run _ _ _ _ _ _ _ _ H).
Qed.
Print Assumptions C47_counting_adapter_counts.

Theorem C47_metrics_projections_counts :
  forall (A T X S : Type) (comp : comparison S) (proj : projection S) (sorter : prog A T X) (s : S) es x s',
    executes comp proj sorter s es x s' ->
    metrics_projections sorter comp proj s = (x, s', length (filter is_project es)).
Proof.
  intros A T X S comp proj sorter s es x s' H. unfold metrics_projections. now rewrite (projections_run _ _ _ _ _ _ _ _ H).
Qed.
Print Assumptions C47_metrics_projections_counts.

(** There is exactly one execution, and running the sorter without counting gives its result: the adapters are
    transparent. *)
Theorem C47_execution_is_unique :
  forall (A T X S : Type) (comp : comparison S) (proj : projection S) (sorter : prog A T X) (s : S),
    exists es x s', executes comp proj sorter s es x s' /\ run comp proj sorter s = (x, s') /\
      forall es2 x2 s2, executes comp proj sorter s es2 x2 s2 -> es2 = es /\ x2 = x /\ s2 = s'.
Proof.
  intros A T X S comp proj sorter s. destruct (executes_total S comp proj sorter s) as (es & x & s' & H).
  exists es, x, s'. split; [exact H|]. split; [eapply plain_run; eauto|]. now apply executes_fun.
Qed.
Print Assumptions C47_execution_is_unique.

(** Sorting two elements: one comparison, two projections. *)
Example C47_case :
  let sorter := Project 5 (fun p => Project 3 (fun q => Compare q p (fun b => Done (if b then [3; 5] else [5; 3])))) in
  let comp : comparison unit := fun a b s => (Nat.ltb a b, s) in
  let proj : projection unit := fun a s => (a + 1, s) in
  executes comp proj sorter tt [EProject 5 6; EProject 3 4; ECompare 4 6 true] [3; 5] tt /\
  counting_adapter sorter comp proj tt = ([3; 5], tt, 1) /\
  metrics_projections sorter comp proj tt = ([3; 5], tt, 2).
Proof. cbv zeta. split; [|split; reflexivity]. repeat (econstructor; [reflexivity|]). constructor. Qed.

(** ** C48 *)

(** Sorter [i] is selected when it is callable, its category is not stronger than that of the iterator, and every
    other such sorter has a weaker category, or the same one and comes later. *)
Theorem C48_hybrid_dispatch_selects :
  forall (sorters : list adapted) (it : category) (i : nat),
    hybrid_dispatch sorters it = Some i <->
    exists c, nth_error sorters i = Some (c, true) /\ category_value c <= category_value it /\
      forall j d, nth_error sorters j = Some (d, true) -> category_value d <= category_value it -> j <> i ->
        category_value d < category_value c \/ (d = c /\ i < j).
Proof.
  intros sorters it i. rewrite hybrid_dispatch_some. split.
  - intros (c & [H1 H2] & H3). exists c. repeat split; auto. intros j d Hj Hd. apply H3. split; auto.
  - intros (c & H1 & H2 & H3). exists c. split; [split; auto|]. intros j d [Hj Hd]. now apply H3.
Qed.
Print Assumptions C48_hybrid_dispatch_selects.

(** The call is ill-formed only when no sorter can be called. *)
Theorem C48_hybrid_dispatch_total :
  forall (sorters : list adapted) (it : category),
    hybrid_dispatch sorters it = None <->
    forall i c, nth_error sorters i = Some (c, true) -> ~ category_value c <= category_value it.
Proof.
  intros sorters it. rewrite hybrid_dispatch_none. split.
  - intros H i c Hi Hc. apply (H i c). split; auto.
  - intros H i c [Hi Hc]. now apply (H i c).
Qed.
Print Assumptions C48_hybrid_dispatch_total.

(** If every adapted sorter sorts, what is called sorts. *)
Theorem C48_hybrid_adapter_sorts :
  forall (A : Type) (lt : A -> A -> bool) (sorters : list (category * bool * range_prog A)) (it : category) p,
    (forall c s, In (c, true, s) sorters -> category_value c <= category_value it -> sorts lt s) ->
    hybrid_adapter sorters it = Some p -> sorts lt p.
Proof.
  intros A lt sorters it p H. unfold hybrid_adapter.
  destruct (hybrid_dispatch (map fst sorters) it) as [i|] eqn:E; [|discriminate].
  apply C48_hybrid_dispatch_selects in E as (c & E1 & E2 & _).
  rewrite nth_error_map in E1. destruct (nth_error sorters i) as [[[c' b] s]|] eqn:E3; [|discriminate].
  simpl in E1. inversion E1; subst. intros E. inversion E; subst.
  eapply H; [eapply nth_error_In; eauto|auto].
Qed.
Print Assumptions C48_hybrid_adapter_sorts.

(** Nested hybrid adapters are flattened: [leaves] lists the sorters from left to right. *)
Theorem C48_hybrid_adapter_flattens :
  forall (X : Type) (sorters : list (sorter_type X)), flatten sorters = Some (flat_map leaves sorters).
Proof. exact flatten_spec. Qed.
Print Assumptions C48_hybrid_adapter_flattens.

Example C48_case :
  let sorters := [(RandomAccess, true); (Forward, true); (Bidirectional, false); (Bidirectional, true); (Forward, true)] in
  hybrid_dispatch sorters RandomAccess = Some 0 /\ hybrid_dispatch sorters Bidirectional = Some 3 /\
  hybrid_dispatch sorters Forward = Some 1 /\ hybrid_dispatch [(RandomAccess, true)] Forward = None /\
  flatten [Single 1; Hybrid [Single 2; Hybrid [Single 3]; Single 4]; Single 5] = Some [1; 2; 3; 4; 5].
Proof. repeat split; reflexivity. Qed.

(** ** C58 *)
Theorem C58_small_array_adapter_dispatches :
  forall (A : Type) (fixed : nat -> range_prog A) (domain : list nat) (n : nat),
    (In n domain -> small_array_adapter fixed (Some domain) n = Some (fixed n)) /\
    (~ In n domain -> small_array_adapter fixed (Some domain) n = None) /\
    small_array_adapter fixed None n = Some (fixed n).
Proof.
  intros A fixed domain n. unfold small_array_adapter.
  destruct (existsb (Nat.eqb n) domain) eqn:E.
  - apply existsb_exists in E as (k & Hk & Ek). apply Nat.eqb_eq in Ek. subst k. repeat split; auto. tauto.
  - repeat split; auto. intros H. exfalso.
    assert (existsb (Nat.eqb n) domain = true) by (apply existsb_exists; exists n; split; auto; apply Nat.eqb_refl).
    congruence.
Qed.
Print Assumptions C58_small_array_adapter_dispatches.

Theorem C58_small_array_adapter_sorts :
  forall (A : Type) (lt : A -> A -> bool) (fixed : nat -> range_prog A) (domain : list nat) (n : nat),
    (forall k, In k domain -> sorts_size k lt (fixed k)) -> In n domain ->
    exists p, small_array_adapter fixed (Some domain) n = Some p /\ sorts_size n lt p.
Proof.
  intros A lt fixed domain n H Hn. exists (fixed n). split; [|auto].
  now apply (proj1 (C58_small_array_adapter_dispatches A fixed domain n)).
Qed.
Print Assumptions C58_small_array_adapter_sorts.

Example C58_case :
  small_array_adapter (fun _ => @insertion_sorter nat nat Nat.ltb (fun x => x)) (Some [2; 3; 5]) 3 <> None /\
  small_array_adapter (fun _ => @insertion_sorter nat nat Nat.ltb (fun x => x)) (Some [2; 3; 5]) 4 = None.
Proof. split; [discriminate|reflexivity]. Qed.
