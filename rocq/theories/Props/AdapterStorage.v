(** C90: the adapters keep the sorters that they adapt, with their states. *)
From Coq Require Import List Bool Arith Lia.
From Verif Require Import Model.AdapterStorage Proofs.AdapterStorage.
Import ListNotations.

(** "The sorter adapter stores a copy of every passed sorters in its internals" (docs/Sorter-adapters.md:24): through adapters of one sorter, to
    any depth, the sorter is reached with its state. *)
Theorem C90_adapter :
  forall (kinds : list nat) (s : sorter),
    no_hidden_state s -> fold_right adapt s kinds = fold_right Adapter s kinds.
Proof.
  intros kinds s W. induction kinds as [|k kinds IH]; simpl; auto. unfold adapt at 1. rewrite IH, stored_id; auto.
  clear IH. induction kinds; simpl; auto.
Qed.
Print Assumptions C90_adapter.

(** "If every original sorter is empty and default-constructible, then the sorter adapter is also": to any depth, and only then; adapters are
    default-constructible if and only if the sorter is. *)
Theorem C90_stateless :
  forall (kinds : list nat) (s : sorter),
    stateless (fold_right Adapter s kinds) = stateless s /\
    default_constructible (fold_right Adapter s kinds) = default_constructible s /\
    (kinds <> [] -> empty (fold_right Adapter s kinds) = stateless s /\ converts (fold_right Adapter s kinds) = stateless s).
Proof.
  intros kinds s.
  assert (D : forall l, default_constructible (fold_right Adapter s l) = default_constructible s) by (induction l; simpl; auto).
  assert (S : forall l, stateless (fold_right Adapter s l) = stateless s).
  { unfold stateless. induction l; simpl; auto. rewrite IHl, D. now destruct (empty s), (default_constructible s). }
  repeat split; auto; destruct kinds as [|k l]; try contradiction; exact (S l).
Qed.
Print Assumptions C90_stateless.

(** hybrid_adapter holds its sorters with their states and in their order; it is stateless if and only if they all are. *)
Theorem C90_hybrid :
  forall l : list sorter,
    (forall s, In s l -> no_hidden_state s) -> (forall declared flat, ~ In (Hybrid declared flat) l) ->
    exists h, hybrid l = Some h /\ sorters_of h = l /\ stateless h = forallb stateless l.
Proof.
  intros l W N. exists (Hybrid l l).
  assert (T : tuple_cat l = Some l).
  { clear W. induction l as [|s l IH]; simpl; auto. rewrite IH by (intros d f H; apply (N d f); now right).
    destruct s as [| |d f]; auto. elim (N d f). now left. }
  unfold hybrid. rewrite T, map_stored_id by (now apply Forall_forall). repeat split.
  unfold stateless. simpl. clear W N T. induction l as [|s l IH]; simpl; auto. rewrite <- IH.
  destruct (empty s), (default_constructible s), (forallb (fun s => empty s && default_constructible s) l), (forallb default_constructible l); reflexivity.
Qed.
Print Assumptions C90_hybrid.

(** "If hybrid_adapter is nested in another hybrid_adapter, those are flattened" (docs/Sorter-adapters.md:129), in their order: partial, the sorters of the nested ones must be stateless. *)
Theorem C90_nested_hybrid_partial :
  forall l : list sorter,
    (forall s, In s l -> no_hidden_state s) ->
    (forall declared flat s, In (Hybrid declared flat) l -> In s flat -> stateless s = true) ->
    exists h, hybrid l = Some h /\ sorters_of h = flat_map sorters_of l.
Proof.
  intros l W S. exists (Hybrid l (flat_map sorters_of l)).
  assert (T : tuple_cat l = Some (flat_map sorters_of l)).
  { induction l as [|s l IH]; simpl; auto.
    rewrite IH; [|intros; apply W; now right|intros d f s' H; apply (S d f s'); now right].
    destruct s as [| |d f]; auto. simpl.
    rewrite (proj2 (forallb_forall stateless f)) by (intros s' H; apply (S d f s'); auto; now left).
    rewrite map_stored_id; auto. apply no_hidden_state_flat with (d := d). apply W. now left. }
  split; auto. unfold hybrid. rewrite T, map_stored_id; auto.
  clear T S. induction l as [|s l IH]; simpl; auto. apply Forall_app. split; [|apply IH; intros; apply W; now right].
  assert (Ws := W s (or_introl eq_refl)). destruct s; [| |apply no_hidden_state_flat in Ws; exact Ws]; simpl; auto.
Qed.
Print Assumptions C90_nested_hybrid_partial.

(** A hybrid_adapter of a hybrid_adapter that has a stateful sorter cannot be made from its sorters. *)
Theorem C90_nested_stateful_refuted :
  forall (before after declared flat : list sorter) (s : sorter),
    In s flat -> stateless s = false -> hybrid (before ++ Hybrid declared flat :: after) = None.
Proof.
  intros before after declared flat s H E. unfold hybrid.
  replace (tuple_cat _) with (@None (list sorter)); auto. symmetry.
  assert (F : forallb stateless flat = false) by (apply not_true_is_false; rewrite forallb_forall; intros F; rewrite (F s H) in E; discriminate).
  induction before as [|b l IH]; simpl; [now rewrite F|]. rewrite IH. now destruct (flat_tuple b).
Qed.
Print Assumptions C90_nested_stateful_refuted.

(** stable_adapter of a hybrid_adapter holds the sorters of its storage, each one stable: those that it was made from, or that were changed since
    by the references of get(). *)
Theorem C90_stable_hybrid_partial :
  forall (always_stable : sorter -> bool) (kind : nat) (declared l : list sorter),
    (forall s, In s l -> no_hidden_state s) -> (forall declared flat, ~ In (Hybrid declared flat) l) ->
    Forall2 (fun d s => same_type d s = true) declared l ->
    exists g, stable_hybrid always_stable kind (Hybrid declared l) = Some g /\
      sorters_of g = map (fun s => if always_stable s then s else Adapter kind s) l.
Proof.
  intros always_stable kind declared l W N F.
  set (m := map (fun s => if always_stable s then s else Adapter kind s) l).
  assert (T : stable_sorters always_stable kind declared l = Some m).
  { subst m. clear N. induction F as [|d s declared l E F IH]; simpl; auto. rewrite E, IH by (intros; apply W; now right).
    unfold stable, adapt. rewrite stored_id by (apply W; now left). auto. }
  destruct (C90_hybrid m) as (g & G & GS & _).
  - intros s HI. subst m. apply in_map_iff in HI as (x & <- & HI). destruct (always_stable x); auto. exact (W x HI).
  - intros d f HI. subst m. apply in_map_iff in HI as (x & E & HI). destruct (always_stable x); [|discriminate]. subst x. now apply (N d f).
  - exists g. repeat split; auto. simpl. now rewrite T.
Qed.
Print Assumptions C90_stable_hybrid_partial.

(** The sorters of a nested hybrid_adapter are counted once by stable_adapter and each by the storage: stable_adapter(hybrid) is ill-formed. *)
Theorem C90_stable_nested_hybrid_refuted :
  forall (always_stable : sorter -> bool) (kind : nat) (declared rest : list sorter) (a b : sorter) (h : sorter),
    (forall d f, stored a <> Hybrid d f) -> stored (stored a) = stored a -> hybrid (Hybrid declared [a; b] :: rest) = Some h -> stable_hybrid always_stable kind h = None.
Proof.
  intros always_stable kind declared rest a b h N I H. unfold hybrid in H. simpl in H.
  destruct (stateless a && (stateless b && true)); [|discriminate]. destruct (tuple_cat rest); [|discriminate].
  injection H as <-. simpl. rewrite I. destruct (stored a) as [| |d f]; auto. now elim (N d f).
Qed.
Print Assumptions C90_stable_nested_hybrid_refuted.

(** "If the sorter adapter is empty and default-constructible, then it can be converted to any function pointer" (docs/Sorter-adapters.md:26);
    hybrid_adapter has the conversions even if it is not, as with an empty sorter that is not default-constructible. *)
Theorem C90_hybrid_converts_partial : forall s : sorter, stateless s = true -> converts s = true.
Proof.
  intros [t e d n|k s|ds flat] H; unfold stateless in H; apply andb_true_iff in H as [H D]; simpl in *; auto.
  clear D. induction flat as [|s l IH]; simpl in *; auto. apply andb_true_iff in H as [H1 H2]. apply andb_true_iff in H1 as [H1 _]. rewrite H1. auto.
Qed.
Print Assumptions C90_hybrid_converts_partial.
Theorem C90_hybrid_converts_refuted :
  exists l h, hybrid l = Some h /\ empty h = false /\ default_constructible h = false /\ converts h = true.
Proof. exists [Sorter 1 true false 0]. eexists. repeat split. Qed.
Print Assumptions C90_hybrid_converts_refuted.

(** A stateful sorter in three adapters; with a stateless one in a hybrid_adapter, then made stable; nested. *)
Example C90_case :
  let stateful := Sorter 1 false true 7 in
  let stateless_one := Sorter 2 true true 0 in
  fold_right adapt stateful [3; 4; 5] = Adapter 3 (Adapter 4 (Adapter 5 stateful)) /\
  (exists h, hybrid [stateful; adapt 3 stateless_one] = Some h /\ sorters_of h = [stateful; Adapter 3 stateless_one] /\ stateless h = false /\
    exists g, stable_hybrid (fun s => match s with Sorter 1 _ _ _ => true | _ => false end) 9 h = Some g /\
      sorters_of g = [stateful; Adapter 9 (Adapter 3 stateless_one)] /\ hybrid [h; stateless_one] = None) /\
  (exists h, hybrid [stateless_one; stateless_one] = Some h /\
    exists n, hybrid [h; stateful] = Some n /\ sorters_of n = [stateless_one; stateless_one; stateful] /\
      stable_hybrid (fun _ => true) 9 n = None) /\
  no_hidden_state stateful /\ no_hidden_state (adapt 3 stateless_one) /\
  Forall2 (fun d s => same_type d s = true) [stateful; Adapter 3 stateless_one] [Sorter 1 false true 8; Adapter 3 stateless_one].
Proof.
  repeat split; try discriminate; [| |now repeat constructor].
  - eexists. repeat split. eexists. repeat split.
  - eexists. repeat split. eexists. repeat split.
Qed.
