(** Comparator networks: effect on memory, 0-1 principle, reordering, layers. *)
From Coq Require Import List Arith Lia Permutation Bool NArith.
From Verif Require Import Spec.Order Lang.Mem Spec.Sorts Proofs.Wp Proofs.OrderLib Proofs.Basic
  Model.Basic Model.Networks.
Import ListNotations.

(** ** Networks on functions *)
Section Run.
Context {A : Type} (lt : A -> A -> bool).

Definition cx (p : nat * nat) (v : nat -> A) : nat -> A := fun k =>
  let '(a, b) := p in
  if k =? a then (if lt (v b) (v a) then v b else v a)
  else if k =? b then (if lt (v b) (v a) then v a else v b)
  else v k.

Fixpoint run (ps : list (nat * nat)) (v : nat -> A) : nat -> A :=
  match ps with
  | [] => v
  | p :: ps => run ps (cx p v)
  end.

End Run.

Definition bcx (p : nat * nat) (v : nat -> bool) : nat -> bool := fun k =>
  let '(a, b) := p in
  if k =? a then v a && v b else if k =? b then v a || v b else v k.

Fixpoint brun (ps : list (nat * nat)) (v : nat -> bool) : nat -> bool :=
  match ps with
  | [] => v
  | p :: ps => brun ps (bcx p v)
  end.

Definition valid_pair (n : nat) (p : nat * nat) : Prop := fst p < snd p < n.
Definition valid (n : nat) (ps : list (nat * nat)) : Prop := Forall (valid_pair n) ps.

(** The network sorts every 0-1 input of [n] wires. *)
Definition sorts01 (n : nat) (ps : list (nat * nat)) : Prop :=
  forall v i j, i < j -> j < n -> implb (brun ps v i) (brun ps v j) = true.

Lemma bcx_ext : forall p v w, (forall k, v k = w k) -> forall k, bcx p v k = bcx p w k.
Proof. intros [a b] v w H k. unfold bcx. rewrite !H. reflexivity. Qed.

Lemma brun_ext : forall ps v w, (forall k, v k = w k) -> forall k, brun ps v k = brun ps w k.
Proof. induction ps; simpl; intros; auto. apply IHps. now apply bcx_ext. Qed.

Lemma brun_app : forall p1 p2 v, brun (p1 ++ p2) v = brun p2 (brun p1 v).
Proof. induction p1; simpl; auto. Qed.

Lemma valid_app : forall n p1 p2, valid n (p1 ++ p2) <-> valid n p1 /\ valid n p2.
Proof. intros. unfold valid. apply Forall_app. Qed.

Section ZeroOne.
Context {A : Type} (lt : A -> A -> bool).
Hypothesis HW : strict_weak_order lt.

Lemma cx_threshold : forall t p v k,
  negb (lt (cx lt p v k) t) = bcx p (fun i => negb (lt (v i) t)) k.
Proof.
  intros t [a b] v k. unfold cx, bcx.
  assert (lt (v b) (v a) = true -> lt (v a) t = true -> lt (v b) t = true) as H1
    by (intros; eapply lt_trans; eauto).
  assert (lt (v b) (v a) = false -> lt (v b) t = true -> lt (v a) t = true) as H2
    by (intros; eapply le_lt_trans; eauto).
  destruct (k =? a); [|destruct (k =? b); auto];
    destruct (lt (v b) (v a)); destruct (lt (v a) t), (lt (v b) t); simpl; auto;
    try (now specialize (H1 eq_refl eq_refl)); try (now specialize (H2 eq_refl eq_refl)).
Qed.

Lemma run_threshold : forall ps t v k,
  negb (lt (run lt ps v k) t) = brun ps (fun i => negb (lt (v i) t)) k.
Proof.
  induction ps as [|p ps IH]; intros t v k; simpl; auto.
  rewrite IH. apply brun_ext. intros i. apply cx_threshold.
Qed.

Lemma zero_one : forall n ps, sorts01 n ps ->
  forall v i j, i < j -> j < n -> lt (run lt ps v j) (run lt ps v i) = false.
Proof.
  intros n ps H v i j Hij Hj.
  specialize (H (fun k => negb (lt (v k) (run lt ps v i))) i j Hij Hj).
  rewrite <- !run_threshold in H. rewrite (lt_irrefl lt HW) in H.
  simpl in H. now apply negb_true_iff in H.
Qed.

End ZeroOne.

(** ** Effect on memory *)
Section Mem.
Context {A T : Type} (comp : T -> T -> bool) (proj : A -> T).
Notation lt := (by_proj comp proj).

Definition holds (f n : nat) (v : nat -> A) (m : mem A) : Prop :=
  forall k, k < n -> nth_error m (f + k) = Some (Val (v k)).

Lemma swap_index_pairs_wp : forall ps f n v m, valid n ps -> holds f n v m -> f + n <= length m ->
  wp (swap_index_pairs comp proj f ps)
     (fun _ m' => pm f (f + n) m m' /\ holds f n (run lt ps v) m') m.
Proof.
  induction ps as [|[a b] ps IH]; intros f n v m HV HH HL; simpl swap_index_pairs.
  - apply wp_ret. split; auto. apply pm_refl.
  - inversion HV as [|? ? [H1 H2] HV']; subst; simpl in H1, H2. apply wp_bind.
    assert (a < n) as Ha by lia. assert (b < n) as Hb by lia.
    eapply wp_iter_swap_if; [apply HH; auto|apply HH; auto|].
    set (m1 := if lt (v b) (v a) then _ else _).
    assert (pm f (f + n) m m1) as HP.
    { unfold m1. destruct (lt (v b) (v a)); [|apply pm_refl]. apply pm_swap; auto; lia. }
    assert (holds f n (cx lt (a, b) v) m1) as HH1.
    { intros k Hk. unfold m1, cx. destruct (lt (v b) (v a)) eqn:E.
      - rewrite !nth_upd. rewrite !upd_length.
        destruct (Nat.eqb_spec k a) as [->|Hka]; [|destruct (Nat.eqb_spec k b) as [->|Hkb]].
        + destruct (Nat.eqb_spec (f + b) (f + a)); [lia|]. rewrite Nat.eqb_refl.
          destruct (Nat.ltb_spec (f + a) (length m)); [auto|lia].
        + rewrite Nat.eqb_refl. destruct (Nat.ltb_spec (f + b) (length m)); [auto|lia].
        + destruct (Nat.eqb_spec (f + b) (f + k)); [lia|]. destruct (Nat.eqb_spec (f + a) (f + k)); [lia|].
          apply HH; auto.
      - destruct (Nat.eqb_spec k a) as [->|Hka]; [apply HH; auto|].
        destruct (Nat.eqb_spec k b) as [->|Hkb]; [apply HH; auto|]. apply HH; auto. }
    eapply wp_mono; [apply (IH f n (cx lt (a, b) v) m1); auto|].
    { rewrite (pm_length _ _ _ _ HP). auto. }
    intros x m' [? ?]. split; [eapply pm_trans; eauto|auto].
Qed.

Lemma full_holds : forall f n m, full f (f + n) m -> 0 < n -> exists v : nat -> A, holds f n v m.
Proof.
  intros f n m HF Hn. rdv HF f x Hx.
  exists (fun k => match nth_error m (f + k) with Some (Val a) => a | _ => x end).
  intros k Hk. rdv HF (f + k) y Hy. now rewrite Hy.
Qed.

Lemma network_wp : forall n ps f m, valid n ps -> full f (f + n) m ->
  wp (swap_index_pairs comp proj f ps)
     (fun _ m' => pm f (f + n) m m' /\
        (strict_weak_order lt -> sorts01 n ps -> sorted_range lt f (f + n) m')) m.
Proof.
  intros n ps f m HV HF. destruct n as [|n].
  - destruct ps as [|p ps]; [|inversion HV as [|? ? [? ?] ?]; lia].
    apply wp_ret. split; [apply pm_refl|]. intros _ _ i j x y. lia.
  - destruct (full_holds f (S n) m HF) as (v & Hv); [lia|].
    eapply wp_mono; [apply (swap_index_pairs_wp ps f (S n) v m); auto; apply HF|].
    intros u m' [HP HH]. split; auto. intros HW HS i j x y H1 H2 H3 Hx Hy.
    replace i with (f + (i - f)) in Hx by lia. replace j with (f + (j - f)) in Hy by lia.
    rewrite HH in Hx, Hy by lia. inversion Hx; inversion Hy; subst.
    eapply zero_one; eauto; lia.
Qed.

End Mem.

Lemma sorts_size_intro : forall A (lt : A -> A -> bool) n (prog : range_prog A),
  (forall f m, full f (f + n) m ->
     wp (prog f (f + n)) (fun _ m' => pm f (f + n) m m' /\ sorted_range lt f (f + n) m') m) ->
  sorts_size n lt prog.
Proof.
  intros A lt n prog Hp pre xs post HL. subst n.
  specialize (Hp (length pre) (pre ++ map Val xs ++ post) (full_init _ _ _)).
  apply wp_ok in Hp as ([] & m' & E & P & S).
  apply pm_decomp in P as (ys & -> & HP).
  exists ys. split; auto. split; auto.
  rewrite (Permutation_length HP) in S. eapply sorted_range_list; eauto.
Qed.

Lemma permutes_size_intro : forall A n (prog : range_prog A),
  (forall f m, full f (f + n) m -> wp (prog f (f + n)) (fun _ m' => pm f (f + n) m m') m) ->
  permutes_size n prog.
Proof.
  intros A n prog Hp pre xs post HL. subst n.
  specialize (Hp (length pre) (pre ++ map Val xs ++ post) (full_init _ _ _)).
  apply wp_ok in Hp as ([] & m' & E & P).
  apply pm_decomp in P as (ys & -> & HP). exists ys; auto.
Qed.

Lemma network_sorts_size : forall A T (comp : T -> T -> bool) (proj : A -> T) n ps,
  strict_weak_order comp -> valid n ps -> sorts01 n ps ->
  sorts_size n (by_proj comp proj) (fun first _ => swap_index_pairs comp proj first ps).
Proof.
  intros A T comp proj n ps HC HV HS. apply sorts_size_intro. intros f m HF.
  eapply wp_mono; [apply network_wp; eauto|]. intros ? m' [HP H]. split; auto.
  apply H; auto. now apply swo_by_proj.
Qed.

Lemma network_permutes_size : forall A T (comp : T -> T -> bool) (proj : A -> T) n ps, valid n ps ->
  permutes_size n (fun first _ => swap_index_pairs comp proj first ps).
Proof.
  intros A T comp proj n ps HV. apply permutes_size_intro. intros f m HF.
  eapply wp_mono; [apply network_wp; eauto|]. intros ? m' [HP H]. auto.
Qed.

(** ** Layers of comparators at a fixed distance *)
Definition mem_nat (x : nat) (l : list nat) : bool := existsb (Nat.eqb x) l.

Lemma mem_nat_In : forall x l, mem_nat x l = true <-> In x l.
Proof.
  intros. unfold mem_nat. rewrite existsb_exists. split.
  - intros (y & H & E). apply Nat.eqb_eq in E. now subst.
  - intros H. exists x. split; auto. apply Nat.eqb_refl.
Qed.

Lemma layer_mem : forall d l v, 0 < d -> (forall x, In x l -> ~ In (x + d) l) -> forall y,
  brun (map (fun x => (x, x + d)) l) v y =
  if mem_nat y l then v y && v (y + d)
  else if (d <=? y) && mem_nat (y - d) l then v (y - d) || v y else v y.
Proof.
  intros d l. induction l as [|x l IH]; intros v Hd HD y.
  - simpl. now rewrite andb_false_r.
  - cbn [map brun]. rewrite IH; auto.
    2:{ intros z Hz Hc. apply (HD z); right; auto. }
    assert (~ In (x + d) l) as H1. { intros Hc. apply (HD x); [left|right]; auto. }
    assert (forall z, z + d = x -> ~ In z l) as H2.
    { intros z Hz Hc. apply (HD z); [right; auto|left; lia]. }
    change (mem_nat y (x :: l)) with ((y =? x) || mem_nat y l).
    change (mem_nat (y - d) (x :: l)) with ((y - d =? x) || mem_nat (y - d) l).
    unfold bcx.
    destruct (Nat.eqb_spec y x) as [->|Hyx].
    + rewrite orb_true_l.
      destruct (Nat.eqb_spec (x + d) x); [lia|]. rewrite Nat.eqb_refl.
      destruct (mem_nat x l) eqn:EM.
      * destruct (v x), (v (x + d)); auto.
      * destruct (Nat.leb_spec d x); simpl; auto.
        destruct (mem_nat (x - d) l) eqn:EM2; auto.
        apply mem_nat_In in EM2. exfalso. apply (H2 (x - d)); auto. lia.
    + rewrite orb_false_l. destruct (Nat.eqb_spec y (x + d)) as [->|Hyd].
      * destruct (mem_nat (x + d) l) eqn:EM; [apply mem_nat_In in EM; tauto|].
        replace (x + d - d) with x by lia. rewrite !Nat.eqb_refl, orb_true_l.
        destruct (Nat.leb_spec d (x + d)); [|lia]. simpl.
        destruct (mem_nat x l); destruct (v x), (v (x + d)); auto.
      * destruct (mem_nat y l) eqn:EM.
        -- destruct (Nat.eqb_spec (y + d) x) as [E|_].
           { apply mem_nat_In in EM. exfalso. eapply H2; eauto. }
           destruct (Nat.eqb_spec (y + d) (x + d)); [lia|]. reflexivity.
        -- destruct (Nat.leb_spec d y); simpl; auto.
           destruct (Nat.eqb_spec (y - d) x); [lia|]. simpl.
           destruct (mem_nat (y - d) l) eqn:EM2; auto.
           destruct (Nat.eqb_spec (y - d) (x + d)) as [E|_]; auto.
           apply mem_nat_In in EM2. rewrite E in EM2. tauto.
Qed.

Lemma layer_spec : forall d l P v, 0 < d -> (forall x, In x l <-> P x = true) ->
  (forall x, P x = true -> P (x + d) = false) -> forall y,
  brun (map (fun x => (x, x + d)) l) v y =
  if P y then v y && v (y + d)
  else if (d <=? y) && P (y - d) then v (y - d) || v y else v y.
Proof.
  intros d l P v Hd HP HD y. rewrite layer_mem; auto.
  - assert (forall z, mem_nat z l = P z) as E.
    { intros z. destruct (P z) eqn:E. { apply mem_nat_In. now apply HP. }
      destruct (mem_nat z l) eqn:E2; auto. apply mem_nat_In, HP in E2. congruence. }
    now rewrite !E.
  - intros x H Hc. apply HP in H. apply HP in Hc. rewrite HD in Hc; congruence.
Qed.

(** A network on [n] wires does not look beyond. *)
Lemma brun_local : forall n ps v w, valid n ps -> (forall k, k < n -> v k = w k) ->
  forall k, k < n -> brun ps v k = brun ps w k.
Proof.
  intros n. induction ps as [|[a b] ps IH]; intros v w HV H k Hk; simpl; auto.
  inversion HV as [|? ? [H1 H2] HV']; subst; simpl in *. apply IH; auto.
  intros i Hi. unfold bcx. rewrite !H by lia. reflexivity.
Qed.
