(** C96: how the adapters that associate data to the elements move these. *)
From Coq Require Import List ZArith Bool Lia.
From Verif Require Import Model.IterMove Model.AssociateMoves Spec.AssociateMoves Proofs.AssociateMoves.
Import ListNotations.
Open Scope Z_scope.

(** A sorter compiles on associations unless it uses iter_move and two adapters are nested. *)
Theorem C96_compiles_partial :
  forall (it : iterator) (p : list op), steps it p = None <-> Exists uses_iter_move p /\ (2 <= adapters it)%nat.
Proof.
  intros it p. destruct (steps_spec it p) as [(HU & HA & ->)|(H & ->)]; split; intros X; auto; try discriminate.
  exfalso. destruct X as [X Y]. destruct H; [contradiction|lia].
Qed.
Print Assumptions C96_compiles_partial.

(** Then it does not: schwartz_adapter<stable_adapter<S>> does not compile for any sorter [S] that moves elements with iter_move. *)
Theorem C96_nested_refuted :
  exists (it : iterator) (p : list op), dedicated_move (iterator_of_collection it) = false /\ steps it p = None.
Proof. exists (Associate (Associate (Plain (Kind false false false)))), [Take 0; Move 1 0; Put 1]. now split. Qed.
Print Assumptions C96_nested_refuted.

(** Where it compiles: the same elements are assigned to, moved from and swapped, in the same order, as without the adapters; and by the same functions
    exactly if there are no adapters, the iterator has no dedicated iter_move, or the sorter does not use it. *)
Theorem C96_movements_partial :
  forall (it : iterator) (p : list op) (l : list step),
    steps it p = Some l ->
    flat_map (fun s => assignments_of (snd s)) l = flat_map expected_assignments p /\
    map regardless_of_function (flat_map (fun s => movement_of (snd s)) l) =
      map regardless_of_function (flat_map (expected_movement (iterator_of_collection it)) p) /\
    (flat_map (fun s => movement_of (snd s)) l = flat_map (expected_movement (iterator_of_collection it)) p <->
     adapters it = 0%nat \/ dedicated_move (iterator_of_collection it) = false \/ ~ Exists uses_iter_move p).
Proof.
  intros it p l H. destruct (steps_spec it p) as [(_ & _ & E)|(_ & E)]; rewrite E in H; [discriminate|]. injection H as <-.
  rewrite !flat_map_steps. split; [|split].
  - clear. induction p as [|o p IH]; cbn [flat_map]; auto. rewrite IH. f_equal. destruct o; auto. cbn. now destruct (adapters it).
  - fold (movements it). clear. induction p as [|o p IH]; cbn [flat_map]; auto. rewrite !map_app, IH. f_equal. apply movements_spec.
  - apply all_movements_spec.
Qed.
Print Assumptions C96_movements_partial.

(** With an adapter, the dedicated iter_move of the iterators of the collection is not used. *)
Theorem C96_dedicated_iter_move_refuted :
  forall (k : kind) (z : Z),
    dedicated_move k = true ->
    steps (Plain k) [Take z] = Some [(false, Constructed (ByIterMove z))] /\
    steps (Associate (Plain k)) [Take z] = Some [(false, Constructed (ByStdMove z))].
Proof. intros [[] ds st] z H; [now split|discriminate]. Qed.
Print Assumptions C96_dedicated_iter_move_refuted.

(** An exception of an element leaves the sorter, unless the sorter assigns from dereferenced iterators in an adapter: then there is one that terminates
    the program. *)
Theorem C96_exceptions_partial :
  forall (it : iterator) (p : list op) (l : list step),
    steps it p = Some l ->
    ((exists throws d, run throws 0 l = Terminates d) <-> Exists assigns_deref p /\ (1 <= adapters it)%nat).
Proof.
  intros it p l H. destruct (steps_spec it p) as [(_ & _ & E)|(_ & E)]; rewrite E in H; [discriminate|]. injection H as <-. clear E. split.
  - intros (throws & d & H).
    destruct (Exists_dec assigns_deref p) as [HE|HE]; [intros []; (left; exact I) || (right; intros [])|..].
    + destruct (adapters it) as [|n] eqn:EA; [|split; auto; lia]. exfalso. revert H. apply never_terminates.
      intros s HS. apply in_flat_map in HS as (o & _ & HS). destruct o; cbn in HS; rewrite ?EA in HS; destruct HS as [<-|[]]; reflexivity.
    + exfalso. revert H. apply never_terminates. intros s HS. apply in_flat_map in HS as (o & HI & HS).
      destruct o; cbn in HS; try destruct (adapters it) in HS; cbn in HS; repeat destruct HS as [<-|HS]; try reflexivity; try contradiction;
        exfalso; apply HE, Exists_exists; eexists; split; [exact HI|exact I].
  - intros [HE HA]. apply Exists_exists in HE as (o & HI & HO). destruct o as [| | |i j|]; try contradiction.
    apply in_split in HI as (p1 & p2 & ->). rewrite flat_map_app. cbn [flat_map plain_steps app].
    replace (0 <? adapters it)%nat with true by (symmetry; apply Nat.ltb_lt; lia).
    eexists _, _. apply (terminates_at _ _ _ 0%nat).
Qed.
Print Assumptions C96_exceptions_partial.

(** Every operation on the elements is performed, up to the first one that throws. *)
Theorem C96_exceptions_stop :
  forall (it : iterator) (p : list op) (l : list step) (throws : nat -> action -> bool),
    steps it p = Some l ->
    ((forall i a, nth_error (map snd l) i = Some a -> throws i a = false) -> run throws 0 l = Returns (map snd l)) /\
    (forall i a,
       nth_error (map snd l) i = Some a -> throws i a = true ->
       (forall j c, (j < i)%nat -> nth_error (map snd l) j = Some c -> throws j c = false) ->
       (~ Exists assigns_deref p \/ adapters it = 0%nat -> run throws 0 l = Throws (firstn i (map snd l))) /\
       (run throws 0 l = Throws (firstn i (map snd l)) \/ run throws 0 l = Terminates (firstn i (map snd l)))).
Proof.
  intros it p l throws HS. split; [exact (run_returns throws l 0)|]. intros i a HI HT HB.
  assert (exists b, nth_error l i = Some (b, a)) as (b & EI).
  { clear - HI. revert l HI. induction i as [|i IH]; intros [|[b c] l] HI; cbn in *; try discriminate; eauto. injection HI as ->. eauto. }
  pose proof (run_stops throws l 0 i b a EI HT HB) as HR. split; [|rewrite HR; destruct b; auto].
  intros HN. rewrite HR. destruct b; auto. exfalso.
  destruct (proj1 (C96_exceptions_partial it p l HS)) as [HE HA]; [|destruct HN; [contradiction|lia]].
  exists throws, (firstn i (map snd l)). exact HR.
Qed.
Print Assumptions C96_exceptions_stop.

Theorem C96_noexcept_refuted :
  exists (throws : nat -> action -> bool) (k : kind) (p : list op) (d l l' : list _),
    steps (Plain k) p = Some l /\ run throws 0 l = Throws d /\
    steps (Associate (Plain k)) p = Some l' /\ run throws 0 l' = Terminates d.
Proof.
  exists (fun n _ => (n =? 1)%nat), (Kind false false false), [Swap 0 1; MoveDeref 2 1]. do 3 eexists. repeat split.
Qed.
Print Assumptions C96_noexcept_refuted.

(** An insertion and a swap, in one adapter, with and without a dedicated iter_move; a swap in three adapters. *)
Example C96_case :
  let k b := Kind b false false in let p := [Take 2; Move 1 2; Put 1; Swap 0 1] in
  steps (Associate (Plain (k false))) p =
    Some [(false, Constructed (ByStdMove 2)); (false, Constructed (ByStdMove 1)); (false, Assigned 2 FromTemporary);
          (false, Assigned 1 FromTemporary); (false, Swapped (BySwap 0 1))] /\
  steps (Plain (k true)) p =
    Some [(false, Constructed (ByIterMove 2)); (false, Assigned 2 (FromIterator (ByIterMove 1))); (false, Assigned 1 FromTemporary);
          (false, Swapped (ByMoves (ByIterMove 0) (ByIterMove 1)))] /\
  Exists uses_iter_move p /\ adapters (Associate (Associate (Plain (k false)))) = 2%nat /\
  steps (Associate (Associate (Associate (Plain (k true))))) [Swap 0 1] = Some [(false, Swapped (ByMoves (ByIterMove 0) (ByIterMove 1)))].
Proof. cbv zeta. repeat split. apply Exists_cons_hd. exact I. Qed.
