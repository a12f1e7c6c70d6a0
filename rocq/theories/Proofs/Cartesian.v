(** Cartesian tree sort. *)
From Coq Require Import List Arith Lia Permutation Bool.
From Verif Require Import Spec.Order Lang.Mem Spec.Sorts Proofs.Wp Proofs.OrderLib Model.Basic Proofs.Basic Model.Rotate Proofs.Rotate
  Model.Heap Proofs.HeapLib Proofs.Heap Model.Indirect Proofs.Indirect Proofs.Stable Proofs.DropMerge Model.Cartesian.
Import ListNotations.

(** * Trees of node indices *)
Inductive tree := Leaf | Node (l : tree) (i : nat) (r : tree).
Fixpoint ids (t : tree) : list nat := match t with Leaf => [] | Node l i r => ids l ++ i :: ids r end.
Definition root (t : tree) : nat := match t with Leaf => 0 | Node _ i _ => i end.

(** The pointer [p] leads to the tree [t]. *)
Fixpoint rep (nodes : list tree_node) (p : option nat) (t : tree) : Prop :=
  match t with
  | Leaf => p = None
  | Node l i r => p = Some i /\ exists n, nth_error nodes i = Some n /\ rep nodes (left_child n) l /\ rep nodes (right_child n) r
  end.

Lemma rep_frame : forall nodes nodes' t p, (forall i, In i (ids t) -> nth_error nodes' i = nth_error nodes i) -> rep nodes p t -> rep nodes' p t.
Proof.
  induction t as [|l IHl i r IHr]; intros p H; simpl; auto. intros (-> & n & Hn & Hl & Hr). split; auto. exists n. cj.
  - rewrite H; auto. simpl. apply in_or_app. right. now left.
  - apply IHl; auto. intros j Hj. apply H. simpl. apply in_or_app. auto.
  - apply IHr; auto. intros j Hj. apply H. simpl. apply in_or_app. right. now right.
Qed.

(** The right spine, from its lowest node: nodes and their left subtrees. *)
Definition spine := list (nat * tree).
Fixpoint plug (sp : spine) (t : tree) : tree := match sp with [] => t | (i, l) :: up => plug up (Node l i t) end.
Fixpoint sids (sp : spine) : list nat := match sp with [] => [] | (i, l) :: up => sids up ++ ids l ++ [i] end.

Lemma ids_plug : forall sp t, ids (plug sp t) = sids sp ++ ids t.
Proof. induction sp as [|[i l] up IH]; intros t; simpl; auto. rewrite IH. simpl. rewrite <- !app_assoc. reflexivity. Qed.
Lemma plug_app : forall sp1 sp2 t, plug (sp1 ++ sp2) t = plug sp2 (plug sp1 t).
Proof. induction sp1 as [|[i l] up IH]; intros; simpl; auto. Qed.
Lemma sids_app : forall sp1 sp2, sids (sp1 ++ sp2) = sids sp2 ++ sids sp1.
Proof. induction sp1 as [|[i l] up IH]; intros; simpl. { now rewrite app_nil_r. } rewrite IH. now rewrite <- !app_assoc. Qed.

Definition top (below : option nat) (sp : spine) : option nat := match sp with [] => below | _ => Some (fst (last sp (0, Leaf))) end.
Fixpoint spine_rep (nodes : list tree_node) (below : option nat) (sp : spine) : Prop :=
  match sp with
  | [] => True
  | (i, l) :: up => (exists n, nth_error nodes i = Some n /\ rep nodes (left_child n) l /\ right_child n = below /\
      match up with [] => True | (j, _) :: _ => parent n = Some j end) /\ spine_rep nodes (Some i) up
  end.

Lemma spine_rep_frame : forall nodes nodes' sp below, (forall i, In i (sids sp) -> nth_error nodes' i = nth_error nodes i) ->
  spine_rep nodes below sp -> spine_rep nodes' below sp.
Proof.
  induction sp as [|[i l] up IH]; intros below H; simpl; auto. intros ((n & Hn & Hl & Hr & Hp) & Hup). split.
  - exists n. cj; auto.
    + rewrite H; auto. simpl. apply in_or_app. right. apply in_or_app. right. now left.
    + eapply rep_frame; [|exact Hl]. intros j Hj. apply H. simpl. apply in_or_app. right. apply in_or_app. now left.
  - apply IH; auto. intros j Hj. apply H. simpl. apply in_or_app. now left.
Qed.

Lemma spine_rep_app : forall nodes sp1 sp2 below, spine_rep nodes below (sp1 ++ sp2) -> spine_rep nodes below sp1 /\ spine_rep nodes (top below sp1) sp2.
Proof.
  induction sp1 as [|[i l] up IH]; intros sp2 below H. { simpl. auto. }
  simpl in H. destruct H as ((n & Hn & Hl & Hr & Hp) & Hup). destruct (IH _ _ Hup) as [H1 H2]. split.
  - simpl. split; auto. exists n. cj; auto. destruct up as [|[j ?] up]; auto.
  - destruct up as [|u up]; auto.
Qed.

Lemma spine_tree : forall nodes sp below t, spine_rep nodes below sp -> rep nodes below t -> rep nodes (top below sp) (plug sp t).
Proof.
  induction sp as [|[i l] up IH]; intros below t HS HT; auto. simpl in HS. destruct HS as ((n & Hn & Hl & Hr & _) & Hup).
  assert (rep nodes (Some i) (Node l i t)) as H. { simpl. split; auto. exists n. cj; auto. now rewrite Hr. }
  specialize (IH _ _ Hup H). simpl plug. destruct up; auto.
Qed.

Section Order.
Context {A : Type} (lt : A -> A -> bool) (val : nat -> A).
Hypothesis HW : strict_weak_order lt.
Notation le := (le lt).

Definition above (x : A) (t : tree) : Prop := forall i, In i (ids t) -> le x (val i).
Fixpoint hord (t : tree) : Prop := match t with Leaf => True | Node l i r => hord l /\ hord r /\ above (val i) l /\ above (val i) r end.
Fixpoint cord (sp : spine) : Prop :=
  match sp with
  | [] => True
  | (i, l) :: up => hord l /\ above (val i) l /\ match up with [] => True | (j, _) :: _ => le (val j) (val i) end /\ cord up
  end.

Lemma above_root : forall l i r, hord (Node l i r) -> above (val i) (Node l i r).
Proof. intros l i r (_ & _ & H1 & H2) j Hj. simpl in Hj. apply in_app_or in Hj as [|[<-|]]; auto. apply le_refl; auto. Qed.

Lemma cord_plug : forall sp t, cord sp -> hord t -> match sp with [] => True | (i, _) :: _ => above (val i) t end -> hord (plug sp t).
Proof.
  induction sp as [|[i l] up IH]; intros t HC HT HA; auto. simpl in HC. destruct HC as (H1 & H2 & H3 & H4). simpl plug.
  assert (HN : hord (Node l i t)) by (simpl; auto). apply IH; auto. destruct up as [|[j ?] up]; auto.
  intros k Hk. eapply (le_trans lt HW); [exact H3|]. apply above_root in HN. auto.
Qed.
Lemma cord_app : forall sp1 sp2, cord (sp1 ++ sp2) -> cord sp1 /\ cord sp2.
Proof.
  induction sp1 as [|[i l] up IH]; intros sp2 H; simpl in *; auto. destruct H as (H1 & H2 & H3 & H4). destruct (IH _ H4) as [H5 H6]. cj; auto.
  destruct up as [|[j ?] up]; auto.
Qed.
(** The greatest of a spine is at its top. *)
Lemma spine_above : forall sp1 i l x, cord (sp1 ++ [(i, l)]) -> le x (val i) -> above x (plug (sp1 ++ [(i, l)]) Leaf).
Proof.
  intros sp1 i l x HC Hx. pose proof (cord_plug _ Leaf HC I) as HH. rewrite plug_app in HH |- *. simpl plug in HH |- *.
  assert (hord (Node l i (plug sp1 Leaf))) as HN. { apply HH. destruct sp1 as [|[j l'] sp1]; intros k []. }
  apply above_root in HN. intros k Hk. eapply (le_trans lt HW); [exact Hx|]. auto.
Qed.
End Order.

Section Sort.
Context {A T : Type} (comp : T -> T -> bool) (proj : A -> T).
Notation lt := (by_proj comp proj).
Variable ord : Prop.
Hypothesis HORD : ord -> strict_weak_order lt.
Variables (xs : list A) (d : A).
Notation n := (length xs).
Definition val (i : nat) : A := nth i xs d.
Implicit Types (L R : mem A).

Lemma val_nth : forall i, i < n -> nth_error xs i = Some (val i).
Proof. intros. now apply nth_error_nth'. Qed.

(** ** The construction of the tree *)

(** [k] elements are in the tree. *)
Definition built (k : nat) (nodes : list tree_node) (rt : nat) : Prop :=
  exists sp, spine_rep nodes None sp /\ sids sp = seq 0 k /\ length nodes = k /\ sp <> [] /\ fst (last sp (0, Leaf)) = rt /\
    (ord -> cord lt val sp).

Lemma last_app_cons : forall X (l1 l2 : list X) x y d, last (l1 ++ x :: l2) d = last (x :: l2) y.
Proof.
  intros X l1 l2 x y d0. induction l1 as [|a l1 IH].
  - simpl app. revert x. induction l2 as [|b l2 IH]; intros x; auto. apply (IH b).
  - simpl app. rewrite <- IH. destruct (l1 ++ x :: l2) eqn:E; auto. destruct l1; discriminate.
Qed.

Lemma find_insertion_parent_wp : forall buffer nodes rt sp k x m (Q : option nat -> mem A -> Prop),
  spine_rep nodes None sp -> sids sp = seq 0 k -> length nodes = k -> sp <> [] -> fst (last sp (0, Leaf)) = rt ->
  (forall i, i < k -> nth_error m (buffer + i) = Some (Val (val i))) ->
  (forall sp1 sp2, sp = sp1 ++ sp2 -> match sp1 with [] => True | _ => lt x (val (fst (last sp1 (0, Leaf)))) = true end ->
     match sp2 with [] => True | (j, _) :: _ => lt x (val j) = false end ->
     Q (match sp2 with [] => None | (j, _) :: _ => Some j end) m) ->
  wp (find_insertion_parent comp proj buffer nodes rt (k - 1) (proj x)) Q m.
Proof.
  intros buffer nodes rt sp k x m Q HR HI HN Hne Hrt HM HQ. unfold find_insertion_parent.
  assert (HB : forall i, In i (sids sp) -> i < k). { intros i Hi. rewrite HI in Hi. apply in_seq in Hi. lia. }
  assert (Hlen : length sp <= k).
  { rewrite <- (seq_length k 0), <- HI. clear. induction sp as [|[i l] up IH]; simpl; auto. rewrite !app_length. simpl. lia. }
  assert (HL : exists l0 up0, sp = (k - 1, l0) :: up0).
  { destruct sp as [|[i l] up]; [congruence|]. exists l, up. f_equal. f_equal. simpl in HI. destruct k as [|k]; [destruct (sids up), (ids l); discriminate|].
    rewrite seq_S in HI. rewrite app_assoc in HI. apply app_inj_tail in HI as [_ ->]. simpl. lia. }
  assert (HD : forall sp1 i l j l' sp2, sp = sp1 ++ (i, l) :: (j, l') :: sp2 -> j < i).
  { intros sp1 i l j l' sp2 E. rewrite E, sids_app in HI. simpl in HI. rewrite <- !app_assoc in HI.
    assert (HS : forall u1 u2 u3 a b s q, u1 ++ a :: u2 ++ b :: u3 = seq s q -> a < b).
    { clear. intros u1 u2 u3 a b s q E. assert (nth (length u1) (seq s q) 0 = a). { rewrite <- E, app_nth2, Nat.sub_diag by lia. auto. }
      assert (nth (length u1 + S (length u2)) (seq s q) 0 = b).
      { rewrite <- E, app_nth2 by lia. replace (length u1 + S (length u2) - length u1) with (S (length u2)) by lia. simpl. rewrite app_nth2, Nat.sub_diag by lia. auto. }
      apply (f_equal (@length nat)) in E. rewrite seq_length, app_length in E. simpl in E. rewrite app_length in E. simpl in E.
      rewrite seq_nth in H, H0 by lia. lia. }
    apply (HS (sids sp2 ++ ids l') (ids l) (sids sp1) j i 0 k). rewrite <- HI, <- !app_assoc. reflexivity. }
  apply wp_loop' with (I := fun prev m' => m' = m /\ exists sp1 l sp2, sp = sp1 ++ (prev, l) :: sp2 /\
      match sp1 with [] => True | _ => lt x (val (fst (last sp1 (0, Leaf)))) = true end)
    (mu := fun prev => prev).
  - split; auto. destruct HL as (l0 & up0 & E). exists [], l0, up0. auto.
  - lia.
  - intros prev m' (-> & sp1 & l & sp2 & E & H1).
    assert (Hk : prev < k). { apply HB. rewrite E, sids_app. simpl. apply in_or_app. left. apply in_or_app. right. apply in_or_app. right. now left. }
    apply wp_bind. eapply wp_get; [apply HM; auto|]. change (comp (proj x) (proj (val prev))) with (lt x (val prev)).
    destruct (lt x (val prev)) eqn:Ec.
    + destruct sp2 as [|[j l'] sp2].
      * assert (prev = rt) as ->. { rewrite <- Hrt, E, last_last. auto. } rewrite Nat.eqb_refl. apply wp_ret.
        apply (HQ (sp1 ++ [(rt, l)]) []); auto. { rewrite app_nil_r. auto. } rewrite last_last. destruct (sp1 ++ [(rt, l)]); auto.
      * assert (Hne2 : prev <> rt).
        { intros ->. pose proof HI as HI2. assert (NoDup (sids sp)) as ND by (rewrite HI; apply seq_NoDup).
          assert (In rt (sids ((j, l') :: sp2))) as HIn.
          { rewrite <- Hrt, E. rewrite (last_app_cons _ _ _ _ (0, Leaf)). clear. revert j l'. induction sp2 as [|[a b] sp2 IH]; intros j l'.
            - simpl. apply in_or_app. right. now left.
            - change (In (fst (last ((a, b) :: sp2) (0, Leaf))) (sids ((a, b) :: sp2) ++ ids l' ++ [j])). apply in_or_app. left. apply IH. }
          rewrite E, sids_app in ND. change (sids ((rt, l) :: (j, l') :: sp2)) with (sids ((j, l') :: sp2) ++ ids l ++ [rt]) in ND.
          apply in_split in HIn as (u & v & Eu). rewrite Eu in ND. rewrite <- !app_assoc in ND. apply NoDup_remove_2 in ND. apply ND.
          apply in_or_app. right. apply in_or_app. right. apply in_or_app. right. now left. }
        apply Nat.eqb_neq in Hne2. rewrite Hne2. apply wp_bind.
        rewrite E in HR. apply spine_rep_app in HR as [_ HR]. simpl in HR. destruct HR as ((nd & Hnd & _ & _ & Hp) & _).
        eapply wp_rd; eauto. rewrite Hp. apply wp_ret. cj; auto.
        -- exists (sp1 ++ [(prev, l)]), l', sp2. split. { rewrite E, <- app_assoc. auto. } rewrite last_last. destruct (sp1 ++ [(prev, l)]); auto.
        -- apply (HD sp1 prev l j l' sp2 E).
    + apply wp_ret. apply (HQ sp1 ((prev, l) :: sp2)); auto.
Qed.
(** The range and the buffer when [a] is in the tree and [b] is not. *)
Definition moving L R (a b : list A) : mem A := L ++ repeat Moved (length a) ++ map Val b ++ R ++ map Val a ++ repeat Raw (length b).

Lemma moving_nth : forall L R a b i x, nth_error a i = Some x ->
  nth_error (moving L R a b) (length L + (length a + length b) + length R + i) = Some (Val x).
Proof.
  intros L R a b i x H. pose proof (nth_lt _ _ _ H) as Hl. unfold moving.
  replace (L ++ repeat Moved (length a) ++ map Val b ++ R ++ map Val a ++ repeat Raw (length b))
    with ((L ++ repeat Moved (length a) ++ map Val b ++ R) ++ map Val a ++ repeat Raw (length b)) by solve_app.
  rewrite nth_error_app2 by (rewrite !app_length, repeat_length, map_length; lia).
  rewrite nth_error_app1 by (rewrite !app_length, repeat_length, !map_length; lia).
  replace (length L + (length a + length b) + length R + i - length (L ++ repeat Moved (length a) ++ map Val b ++ R)) with i
    by (rewrite !app_length, repeat_length, map_length; lia).
  rewrite nth_error_map, H. auto.
Qed.

Lemma move_to_node : forall X (K : M A X) L R a x b c (Q : X -> mem A -> Prop), c = length L + (length a + S (length b)) + length R ->
  wp K Q (moving L R (a ++ [x]) b) ->
  wp (let* x := take (length L + length a) in construct (c + length a) x ;; K) Q (moving L R a (x :: b)).
Proof.
  intros X K L R a x b c Q -> HQ. apply wp_bind. unfold moving. simpl map. simpl length.
  reshape ((L ++ repeat Moved (length a)) ++ Val x :: (map Val b ++ R ++ map Val a ++ repeat Raw (S (length b)))).
  apply wp_take_at; [lens|]. apply wp_bind.
  reshape ((L ++ repeat Moved (length a) ++ Moved :: map Val b ++ R ++ map Val a) ++ Raw :: repeat Raw (length b)).
  apply wp_construct_at; [lens|]. eapply wp_eq_mem; [|exact HQ]. unfold moving. rewrite app_length. simpl length.
  rewrite repeat_app, map_app. simpl. solve_app.
Qed.

Lemma built_insert : forall k nodes rt x, built k nodes rt -> x = val k -> 0 < k ->
  forall L R a b, xs = a ++ x :: b -> length a = k ->
  wp (cartesian_insert comp proj (length L + n + length R) (length L + k) nodes rt)
    (fun '(nodes', rt') m => built (S k) nodes' rt' /\ m = moving L R (a ++ [x]) b) (moving L R a (x :: b)).
Proof.
  intros k nodes rt x (sp & HR & HI & HN & Hne & Hrt & HC) Ex Hk L R a b EX Ha. unfold cartesian_insert.
  assert (HL : n = length a + S (length b)). { rewrite EX, app_length. auto. }
  apply wp_bind. eapply wp_get.
  { unfold moving. rewrite nth_error_app2 by lia. rewrite nth_error_app2 by (rewrite repeat_length; lia).
    rewrite repeat_length. replace (length L + k - length L - length a) with 0 by lia. reflexivity. }
  rewrite HN. apply wp_bind. eapply find_insertion_parent_wp; eauto.
  { intros i Hi. rewrite HL. change (S (length b)) with (length (x :: b)). apply moving_nth. rewrite <- (nth_error_app1 a (x :: b)) by lia. rewrite <- EX. apply val_nth. lia. }
  intros sp1 sp2 E H1 H2. cbv zeta. replace (length L + k) with (length L + length a) by lia. replace (length L + n + length R + k) with (length L + n + length R + length a) by lia.
  apply move_to_node; [lia|].
  rewrite E in HR. apply spine_rep_app in HR as [HR1 HR2]. rewrite E, sids_app in HI.
  assert (HB : forall i, In i (sids sp2) \/ In i (sids sp1) -> i < k). { intros i Hi. apply in_or_app in Hi. rewrite HI in Hi. apply in_seq in Hi. lia. }
  assert (ND : NoDup (sids sp2 ++ sids sp1)). { rewrite HI. apply seq_NoDup. }
  assert (HT : rep nodes (top None sp1) (plug sp1 Leaf)). { apply spine_tree; auto. reflexivity. }
  assert (HIT : ids (plug sp1 Leaf) = sids sp1). { rewrite ids_plug. simpl. apply app_nil_r. }
  assert (HO : ord -> hord lt val (plug sp1 Leaf) /\ above lt val (val k) (plug sp1 Leaf) /\ cord lt val sp2).
  { intros Ho. pose proof (HORD Ho) as HW. rewrite E in HC. destruct (cord_app _ _ _ _ (HC Ho)) as [HC1 HC2]. cj; auto.
    - apply cord_plug; auto. { simpl. auto. } destruct sp1 as [|[j ?] ?]; auto. intros ? [].
    - destruct sp1 as [|e sp1] using rev_ind. { intros ? []. } destruct e as [j l]. rewrite last_last in H1. simpl in H1.
      apply spine_above; auto. apply lt_le; auto. rewrite <- Ex. destruct (sp1 ++ [(j, l)]) eqn:E1; [destruct sp1; discriminate|]. auto. }
  destruct sp2 as [|[j l] sp2].
  - apply wp_ret. split; auto. exists [(k, plug sp1 Leaf)]. rewrite app_length, HN. simpl in HI. cj; auto.
    + simpl. split; auto. exists {| parent := None; left_child := Some rt; right_child := None |}. rewrite nth_error_app2, HN, Nat.sub_diag by lia. cj; auto.
      simpl. rewrite app_nil_r in E. subst sp1. assert (top None sp = Some rt) as HTop. { unfold top. rewrite Hrt. destruct sp; congruence. }
      rewrite <- HTop. eapply rep_frame; [|exact HT]. intros i Hi. rewrite HIT in Hi. rewrite nth_error_app1; auto. rewrite HN. auto.
    + change (ids (plug sp1 Leaf) ++ [k] = seq 0 (S k)). rewrite HIT, HI, seq_S. reflexivity.
    + simpl; lia.
    + discriminate.
    + intros Ho. simpl. destruct (HO Ho) as (? & ? & ?). auto.
  - simpl in HR2. destruct HR2 as ((nd & Hnd & Hl & Hr & Hp) & Hup).
    apply wp_bind. eapply wp_rd; eauto. apply wp_bind. apply wp_wr. { apply nth_lt in Hnd. rewrite app_length. lia. }
    apply wp_ret. split; auto. set (new := {| parent := Some j; left_child := right_child nd; right_child := None |}).
    set (nd' := {| parent := parent nd; left_child := left_child nd; right_child := Some k |}).
    assert (Hjk : j < k). { apply nth_lt in Hnd. lia. }
    assert (HF : forall i, i <> j -> i < k -> nth_error (upd j nd' (nodes ++ [new])) i = nth_error nodes i).
    { intros i Hi Hi2. rewrite nth_upd_ne by auto. apply nth_error_app1. lia. }
    assert (HJ : forall i, In i (sids sp2) \/ In i (ids l) \/ In i (sids sp1) -> i <> j).
    { intros i Hi ->. simpl in ND. rewrite <- !app_assoc in ND. rewrite app_assoc in ND. apply NoDup_remove_2 in ND. apply ND.
      rewrite !in_app_iff. tauto. }
    assert (HB' : forall i, In i (sids sp2) \/ In i (ids l) \/ In i (sids sp1) -> i < k).
    { intros i Hi. apply HB. simpl. rewrite !in_app_iff. tauto. }
    exists ((k, plug sp1 Leaf) :: (j, l) :: sp2). cj.
    + simpl. cj.
      * exists new. cj; auto.
        -- rewrite nth_upd_ne by lia. rewrite nth_error_app2, HN, Nat.sub_diag by lia. auto.
        -- simpl. rewrite Hr. eapply rep_frame; [|exact HT]. intros i Hi. rewrite HIT in Hi. apply HF; auto.
      * exists nd'. cj; auto.
        -- rewrite nth_upd_eq; auto. rewrite app_length. lia.
        -- simpl. eapply rep_frame; [|exact Hl]. intros i Hi. apply HF; auto.
      * eapply spine_rep_frame; [|exact Hup]. intros i Hi. apply HF; auto.
    + simpl sids in *. rewrite HIT. rewrite app_assoc, HI, seq_S. reflexivity.
    + rewrite upd_length, app_length, HN. simpl. lia.
    + discriminate.
    + rewrite <- Hrt, E. rewrite (last_app_cons _ sp1 sp2 (j, l) (0, Leaf)). reflexivity.
    + intros Ho. destruct (HO Ho) as (? & ? & HC2). simpl in HC2 |- *. cj; try tauto. rewrite <- Ex. auto.
Qed.

Lemma cartesian_tree_wp : forall L R, 0 < n ->
  wp (cartesian_tree comp proj (length L + n + length R) (length L) (length L + n))
    (fun '(nodes, rt) m => built n nodes rt /\ m = moving L R xs []) (moving L R [] xs).
Proof.
  intros L R Hn. unfold cartesian_tree. assert (exists x0 xs0, xs = x0 :: xs0) as (x0 & xs0 & EX). { destruct xs; [simpl in Hn; lia|eauto]. }
  apply wp_eq_mem with (m' := moving L R [] (x0 :: xs0)); [now rewrite EX|].
  replace (take (length L)) with (@take A (length L + @length A [])) by now rewrite Nat.add_0_r. change (length L + n + length R + 0) with (length L + n + length R + @length A []).
  apply move_to_node; [rewrite EX; auto|].
  apply wp_loop' with (I := fun '(first, nodes, rt) m => exists a b, xs = a ++ b /\ 0 < length a /\ first = length L + length a /\ built (length a) nodes rt /\ m = moving L R a b)
    (mu := fun '(first, nodes, rt) => length L + n - first).
  - exists [x0], xs0. cj; [auto|simpl; auto|simpl; lia| |reflexivity]. exists [(0, Leaf)]. cj; [|auto|auto|discriminate|auto|].
    + simpl. split; auto. exists {| parent := None; left_child := None; right_child := None |}. cj; auto.
    + intros _. simpl. cj; auto. intros ? [].
  - lia.
  - intros [[first nodes] rt] m (a & b & E & Ha & -> & HB & ->). assert (HL : n = length a + length b) by (rewrite E, app_length; auto).
    destruct (Nat.eqb_spec (length L + length a) (length L + n)).
    + apply wp_ret. destruct b; [|simpl in HL; lia]. rewrite app_nil_r in E. subst a. auto.
    + destruct b as [|x b]; [simpl in HL; lia|]. apply wp_bind. eapply wp_mono; [eapply built_insert with (x := x); eauto|].
      * unfold val. rewrite E, app_nth2, Nat.sub_diag by lia. auto.
      * intros [nodes' rt'] m' [HB' ->]. apply wp_ret. cbv beta iota. split.
        -- exists (a ++ [x]), b. rewrite app_length, Nat.add_1_r. cj; auto; try lia. rewrite E, <- app_assoc. auto.
        -- simpl in HL. lia.
Qed.

(** ** The priority queue *)
Notation p2 := (fun e : nat * A => proj (snd e)).
Notation lte := (by_proj (flip_comp comp) p2).
Notation queue := (list (nat * A)).
Definition heapv (q : queue) : Prop := heap lte 2 0 0 (length q) (map Val q).

Lemma swo_lte : ord -> strict_weak_order lte.
Proof. intros Ho. apply (@swo_by_proj (nat * A) A (flip_comp lt) snd). apply swo_flip. auto. Qed.

Lemma heapv_front : ord -> forall e q, heapv (e :: q) -> forall e', In e' (e :: q) -> le lt (snd e) (snd e').
Proof.
  intros Ho e q H e' Hin. apply In_nth_error in Hin as [i Hi].
  assert (Hl : i < length (e :: q)) by (eapply nth_lt; eauto).
  apply (heap_root_max lte 2 0 ltac:(lia) (swo_lte Ho) (length (e :: q)) (map Val (e :: q)) H) with (i := i); auto.
  - pose proof (full_init [] (e :: q) []) as F. rewrite app_nil_r in F. exact F.
  - rewrite Nat.add_0_l, nth_error_map, Hi. reflexivity.
Qed.

Lemma run_vector_wp : forall (c : M (nat * A) unit) (v : queue) (P : mem (nat * A) -> Prop) (m : mem A) (Q : queue -> mem A -> Prop),
  wp c (fun _ v' => pm 0 (length v) (map Val v) v' /\ P v') (map Val v) -> (forall v', Permutation v v' -> P (map Val v') -> Q v' m) ->
  wp (run_vector c v) Q m.
Proof.
  intros c v P m Q H HQ. unfold run_vector. unfold wp in *. destruct (c (map Val v)) as [[] v'| |]; auto. destruct H as [HP H].
  pose proof (pm_decomp [] v []) as D. simpl in D. rewrite app_nil_r in D. destruct (D _ HP) as (w & -> & Hw). rewrite app_nil_r in *. rewrite values_map. apply HQ; auto.
Qed.

Lemma fullv : forall v : queue, full 0 (0 + length v) (map Val v).
Proof. intros v. pose proof (full_init [] v []) as F. rewrite app_nil_r in F. exact F. Qed.

(** The front is replaced. *)
Lemma queue_replace : forall e e' q (m : mem A) (Q : queue -> mem A -> Prop),
  (forall q', Permutation (e' :: q) q' -> (ord -> heapv (e :: q) -> heapv q') -> Q q' m) ->
  wp (run_vector (sift_down (flip_comp comp) p2 0 (length (e' :: q)) 0) (e' :: q)) Q m.
Proof.
  intros e e' q m Q HQ. eapply run_vector_wp with (P := fun v' => ord -> heapv (e :: q) -> heap lte 2 0 0 (length (e' :: q)) v').
  - eapply wp_mono; [apply (sift_down_wp (flip_comp comp) p2 0 (length (e' :: q)) 0 (map Val (e' :: q))); [simpl; lia|apply fullv]|].
    intros _ v' [HP HH]. split; auto. intros Ho H. apply HH; [apply swo_lte; auto|].
    intros i Hi Hs x y Hx Hy. pose proof (par_lt 2 ltac:(lia) i ltac:(lia)). apply (H i); auto; try lia.
    + destruct i; [lia|exact Hx].
    + destruct (par 2 i); [lia|exact Hy].
  - intros v' HP HH. apply HQ; auto. intros Ho H. unfold heapv. rewrite <- (Permutation_length HP). auto.
Qed.

Lemma queue_push : forall e q (m : mem A) (Q : queue -> mem A -> Prop),
  (forall q', Permutation (q ++ [e]) q' -> (ord -> heapv q -> heapv q') -> Q q' m) ->
  wp (run_vector (push_heap (flip_comp comp) p2 0 (length (q ++ [e])) (length (q ++ [e]))) (q ++ [e])) Q m.
Proof.
  intros e q m Q HQ. assert (HL : length (q ++ [e]) = length q + 1) by (rewrite app_length; auto).
  eapply run_vector_wp with (P := fun v' => ord -> heapv q -> heap lte 2 0 0 (length (q ++ [e])) v').
  - rewrite HL. change (length q + 1) with (0 + length q + 1) at 1. eapply wp_mono; [apply (push_heap_wp (flip_comp comp) p2 0 (length (q ++ [e])) (length q)); [lia|apply fullv]|].
    intros _ v' [HP HH]. split. { replace (length q + 0 + 1) with (length q + 1) in HP by lia. auto. } intros Ho H. rewrite HL in HH. apply HH; [apply swo_lte; auto|]. split.
    + intros i Hi Hne x y Hx Hy. pose proof (par_lt 2 ltac:(lia) i ltac:(lia)). rewrite map_app, nth_error_app1 in Hx, Hy by (rewrite map_length; lia).
      apply (H i); auto; lia.
    + intros i Hi Hp. pose proof (par_lt 2 ltac:(lia) i ltac:(lia)). lia.
  - intros v' HP HH. apply HQ; auto. intros Ho H. unfold heapv. rewrite <- (Permutation_length HP). auto.
Qed.

Lemma queue_pop : forall e q (m : mem A) (Q : queue -> mem A -> Prop),
  (forall q' e', Permutation q q' -> (ord -> heapv (e :: q) -> heapv q') -> Q (q' ++ [e']) m) ->
  wp (run_vector (pop_heap (flip_comp comp) p2 0 (length (e :: q)) (length (e :: q))) (e :: q)) Q m.
Proof.
  intros e q m Q HQ. destruct q as [|e1 q].
  { unfold wp, run_vector. simpl. apply (HQ [] e); auto. intros _ _ i Hi. simpl in Hi. lia. }
  remember (e1 :: q) as q1. assert (1 <= length q1) by (subst; simpl; lia).
  eapply run_vector_wp with (P := fun v' => nth_error v' (length q1) = Some (Val e) /\ (ord -> heapv (e :: q1) -> heap lte 2 0 0 (length q1) v')).
  - eapply wp_mono; [apply (pop_heap_wp (flip_comp comp) p2 0 (length (e :: q1)) (map Val (e :: q1))); [simpl; lia|apply fullv]|].
    intros _ v' (HP & HN & HH). cj; auto.
    + simpl in HN. rewrite Nat.sub_0_r in HN. auto.
    + intros Ho Hh. simpl in HH. rewrite Nat.sub_0_r in HH. apply HH; auto. apply swo_lte; auto.
  - intros v' HP (HN & HH). pose proof (Permutation_length HP) as HL. simpl in HL.
    destruct v' as [|z v'] using rev_ind; [discriminate|]. rewrite app_length in HL. simpl in HL.
    rewrite nth_error_map, nth_error_app2 in HN by lia. replace (length q1 - length v') with 0 in HN by lia. simpl in HN. injection HN as ->.
    apply HQ.
    + apply Permutation_cons_inv with e. rewrite HP. symmetry. apply Permutation_cons_append.
    + intros Ho H0. specialize (HH Ho H0). unfold heapv. replace (length v') with (length q1) by lia. intros i Hi Hs x y Hx Hy.
      pose proof (par_lt 2 ltac:(lia) i ltac:(lia)). apply (HH i); auto; rewrite map_app, nth_error_app1; auto; rewrite map_length; lia.
Qed.

(** ** The loop *)
Definition kids (t : tree) : list tree := match t with Leaf => [] | _ => [t] end.
Notation all := (flat_map ids).
Lemma all_kids : forall t, all (kids t) = ids t.
Proof. destruct t; simpl; auto. now rewrite app_nil_r. Qed.

Record inv (nodes : list tree_node) (outs buf : list (cell A)) (q : queue) (ts : list tree) (os : list A) : Prop := {
  inv_outs : outs = map Val os ++ repeat Moved (n - length os);
  inv_queue : Permutation (map fst q) (map root ts);
  inv_values : forall e, In e q -> snd e = val (fst e);
  inv_trees : Forall (fun t => t <> Leaf /\ rep nodes (Some (root t)) t) ts;
  inv_perm : Permutation (os ++ map val (all ts)) xs;
  inv_nodup : NoDup (all ts);
  inv_length : length buf = n;
  inv_live : Forall live buf;
  inv_buf : forall i, In i (all ts) -> nth_error buf i = Some (Val (val i));
  inv_heap : ord -> heapv q /\ Forall (hord lt val) ts;
  inv_sorted : ord -> sorted lt os /\ forall x i, In x os -> In i (all ts) -> le lt x (val i)
}.

Lemma inv_le : forall nodes outs buf q ts os, inv nodes outs buf q ts os -> length os + length (all ts) = n.
Proof. intros. destruct H. apply Permutation_length in inv_perm0. rewrite app_length, map_length in inv_perm0. auto. Qed.

Lemma inv_front : forall nodes outs buf i x q ts os, inv nodes outs buf ((i, x) :: q) ts os -> exists l r ts',
  inv nodes outs buf ((i, x) :: q) (Node l i r :: ts') os /\ Permutation (map fst q) (map root ts').
Proof.
  intros nodes outs buf i x q ts os []. assert (In i (map root ts)) as Hin. { eapply Permutation_in; [exact inv_queue0|]. now left. }
  apply in_map_iff in Hin as (t & Hr & Hin). apply in_split in Hin as (t1 & t2 & ->).
  assert (Permutation (t1 ++ t :: t2) (t :: t1 ++ t2)) as HP by (symmetry; apply Permutation_middle).
  rewrite Forall_forall in inv_trees0. destruct (inv_trees0 t ltac:(apply in_or_app; right; now left)) as [Hne _].
  destruct t as [|l i' r]; [congruence|]. simpl in Hr. subst i'. exists l, r, (t1 ++ t2).
  assert (HA : Permutation (all (t1 ++ Node l i r :: t2)) (all (Node l i r :: t1 ++ t2))) by (apply Permutation_flat_map; auto).
  assert (HQ : Permutation (map fst q) (map root (t1 ++ t2))).
  { apply Permutation_cons_inv with i. rewrite (Permutation_map root HP) in inv_queue0. exact inv_queue0. }
  split; auto. constructor; auto.
  - rewrite <- HP. auto.
  - rewrite <- HP. apply Forall_forall. auto.
  - rewrite <- HA. auto.
  - eapply Permutation_NoDup; eauto.
  - intros j Hj. apply inv_buf0. eapply Permutation_in; [symmetry; exact HA|auto].
  - intros Ho. destruct (inv_heap0 Ho). split; auto. rewrite <- HP. auto.
  - intros Ho. destruct (inv_sorted0 Ho) as [? H2]. split; auto. intros y j Hy Hj. apply H2; auto. eapply Permutation_in; [symmetry; exact HA|auto].
Qed.

Lemma inv_next : forall nodes outs buf i x q l r ts os q', inv nodes outs buf ((i, x) :: q) (Node l i r :: ts) os ->
  Permutation (map fst q) (map root ts) ->
  Permutation (map fst q') (map root (kids l ++ kids r) ++ map fst q) -> (forall e, In e q' -> snd e = val (fst e)) ->
  (ord -> heapv q') ->
  inv nodes (map Val (os ++ [val i]) ++ repeat Moved (n - length (os ++ [val i]))) (upd i Moved buf) q' (kids l ++ kids r ++ ts) (os ++ [val i]).
Proof.
  intros nodes outs buf i x q l r ts os q' [] HQ HQ' HV HH.
  assert (HA : all (kids l ++ kids r ++ ts) = ids l ++ ids r ++ all ts) by (rewrite !flat_map_app, !all_kids; auto).
  assert (HM : Permutation (all (Node l i r :: ts)) (i :: ids l ++ ids r ++ all ts)).
  { simpl. rewrite <- !app_assoc. symmetry. apply Permutation_middle. }
  assert (HND : NoDup (i :: ids l ++ ids r ++ all ts)) by (eapply Permutation_NoDup; eauto).
  assert (Hin : forall j, In j (ids l ++ ids r ++ all ts) -> In j (all (Node l i r :: ts))).
  { intros j Hj. eapply Permutation_in; [symmetry; exact HM|]. now right. }
  assert (Hi : i < n). { rewrite <- inv_length0. eapply nth_lt. apply inv_buf0. eapply Permutation_in; [symmetry; exact HM|]. now left. }
  constructor; auto.
  - rewrite HQ', HQ. rewrite !map_app, <- app_assoc. reflexivity.
  - apply Forall_inv in inv_trees0 as HT. apply Forall_inv_tail in inv_trees0. destruct HT as [_ HT]. simpl in HT. destruct HT as (_ & nd & Hnd & Hl & Hr).
    apply Forall_app. split; [|apply Forall_app; split; auto].
    + destruct l as [|l1 j l2]; simpl kids; constructor; auto. split; [discriminate|]. pose proof Hl as Hl'. simpl in Hl'. destruct Hl' as [El _]. rewrite El in Hl. exact Hl.
    + destruct r as [|l1 j l2]; simpl kids; constructor; auto. split; [discriminate|]. pose proof Hr as Hr'. simpl in Hr'. destruct Hr' as [El _]. rewrite El in Hr. exact Hr.
  - rewrite HA, <- inv_perm0, HM. simpl map. rewrite <- app_assoc. reflexivity.
  - rewrite HA. now inversion HND.
  - rewrite upd_length. auto.
  - apply Forall_forall. intros c Hc. apply In_nth_error in Hc as [j Hj]. destruct (Nat.eq_dec j i) as [->|Hne].
    + rewrite nth_upd_eq in Hj by (rewrite inv_length0; auto). injection Hj as <-. discriminate.
    + rewrite nth_upd_ne in Hj by auto. eapply Forall_forall; [exact inv_live0|]. eapply nth_error_In; eauto.
  - intros j Hj. rewrite HA in Hj. rewrite nth_upd_ne; auto. inversion HND; subst. intros ->. auto.
  - intros Ho. split; auto. destruct (inv_heap0 Ho) as [_ HF]. apply Forall_inv in HF as H1. apply Forall_inv_tail in HF. simpl in H1. destruct H1 as (H1 & H2 & _).
    apply Forall_app. split; [|apply Forall_app; split; auto]; [destruct l|destruct r]; simpl kids; auto.
  - intros Ho. destruct (inv_sorted0 Ho) as [HS HB]. destruct (inv_heap0 Ho) as [Hq HF]. pose proof (HORD Ho) as HW.
    assert (Hfront : forall j, In j (ids l ++ ids r ++ all ts) -> le lt (val i) (val j)).
    { intros j Hj. apply Forall_inv in HF as H1. apply Forall_inv_tail in HF. apply in_app_or in Hj as [Hj|Hj]; [|apply in_app_or in Hj as [Hj|Hj]].
      - apply (proj1 (proj2 (proj2 H1))); auto.
      - apply (proj2 (proj2 (proj2 H1))); auto.
      - apply in_flat_map in Hj as (t & Ht & Hj). pose proof Ht as Ht'. rewrite Forall_forall in HF. specialize (HF _ Ht). apply in_map with (f := root) in Ht.
        apply (Permutation_in _ (Permutation_sym HQ)) in Ht. apply in_map_iff in Ht as (e & Ee & He).
        apply (le_trans lt HW) with (val (root t)).
        + rewrite <- Ee. rewrite <- (inv_values0 e (or_intror He)). change i with (fst (i, x)). rewrite <- (inv_values0 (i, x) (or_introl eq_refl)). apply heapv_front with q; auto. now right.
        + destruct t as [|tl j' tr]; [destruct Hj|]. exact (above_root lt val HW tl j' tr HF j Hj). }
    split.
    + apply sorted_app; auto. split; auto. split; [apply sorted_one|]. intros a b Ha [<-|[]]. apply HB; auto. eapply Permutation_in; [symmetry; exact HM|]. now left.
    + intros y j Hy Hj. rewrite HA in Hj. apply in_app_or in Hy as [Hy|[<-|[]]]; auto.
Qed.

Lemma buffer_nth : forall L B R (buf : list (cell A)) i c, length B = n -> nth_error buf i = c ->
  nth_error (L ++ B ++ R ++ buf) (length L + n + length R + i) = c.
Proof.
  intros L B R buf i c HB H. rewrite nth_error_app2 by lia. rewrite nth_error_app2 by lia. rewrite nth_error_app2 by lia.
  rewrite <- H. f_equal. lia.
Qed.

Lemma queued_wp : forall buffer i m (Q : nat * A -> mem A -> Prop), nth_error m (buffer + i) = Some (Val (val i)) -> Q (i, val i) m ->
  wp (queued buffer i) Q m.
Proof. intros. unfold queued. apply wp_bind. eapply wp_get; eauto. Qed.

Lemma step_wp : forall L R nodes outs buf q ts os, inv nodes outs buf q ts os ->
  wp (cartesian_step comp proj (length L + n + length R) nodes (length L + length os) q)
    (fun res m => match res with
       | None => q = [] /\ m = L ++ outs ++ R ++ buf
       | Some q' => q <> [] /\ exists outs' buf' ts' x, inv nodes outs' buf' q' ts' (os ++ [x]) /\ m = L ++ outs' ++ R ++ buf'
       end) (L ++ outs ++ R ++ buf).
Proof.
  intros L R nodes outs buf q ts os HI. destruct q as [|[i x] q]. { apply wp_ret. auto. }
  apply inv_front in HI as (l & r & ts' & HI & HQ). unfold cartesian_step.
  pose proof (inv_le _ _ _ _ _ _ HI) as HLe. simpl in HLe. rewrite !app_length in HLe. simpl in HLe.
  assert (HNX : forall q', Permutation (map fst q') (map root (kids l ++ kids r) ++ map fst q) -> (forall e, In e q' -> snd e = val (fst e)) ->
    (ord -> heapv ((i, x) :: q) -> heapv q') -> exists outs' buf' ts' x, inv nodes outs' buf' q' ts' (os ++ [x]) /\
    L ++ (map Val (os ++ [val i]) ++ repeat Moved (n - length (os ++ [val i]))) ++ R ++ upd i Moved buf = L ++ outs' ++ R ++ buf').
  { intros q' H1 H2 H3. do 4 eexists. split; [|reflexivity]. eapply inv_next; eauto. intros Ho. apply H3; auto. apply HI; auto. }
  destruct HI.
  assert (Hbi : nth_error buf i = Some (Val (val i))). { apply inv_buf0. simpl. apply in_or_app. left. apply in_or_app. right. now left. }
  assert (Hi : i < n). { rewrite <- inv_length0. eapply nth_lt; eauto. }
  assert (HB : forall j, In j (ids l ++ ids r) -> nth_error (upd i Moved buf) j = Some (Val (val j))).
  { intros j Hj. rewrite nth_upd_ne. { apply inv_buf0. simpl. rewrite !in_app_iff in *. simpl. tauto. }
    intros ->. simpl in inv_nodup0. rewrite <- app_assoc in inv_nodup0. apply NoDup_remove_2 in inv_nodup0. apply inv_nodup0. rewrite !in_app_iff in *. tauto. }
  set (buf' := upd i Moved buf) in *. set (m1 := L ++ (map Val (os ++ [val i]) ++ repeat Moved (n - length (os ++ [val i]))) ++ R ++ buf') in *.
  assert (HB' : forall j, In j (ids l ++ ids r) -> nth_error m1 (length L + n + length R + j) = Some (Val (val j))).
  { intros j Hj. unfold m1. apply buffer_nth; auto. rewrite !app_length, map_length, repeat_length, app_length. simpl. lia. }
  apply wp_bind. apply wp_mono with (Q := fun _ m => m = m1).
  { subst outs. replace (n - length os) with (S (n - length (os ++ [val i]))) by (rewrite app_length; simpl; lia).
    assert (exists b1 b2, buf = b1 ++ Val (val i) :: b2 /\ length b1 = i) as (b1 & b2 & Eb & Hb1). { apply nth_error_split in Hbi as (? & ? & ? & ?). eauto. }
    assert (buf' = b1 ++ Moved :: b2) as Eb'. { unfold buf'. rewrite Eb, <- Hb1. apply upd_mid. }
    rewrite Eb. simpl repeat. reshape ((L ++ map Val os) ++ Moved :: (repeat Moved (n - length (os ++ [val i])) ++ R ++ b1) ++ Val (val i) :: b2).
    apply wp_move_to_left; [lens|rewrite !app_length, map_length, repeat_length, ?app_length; simpl; lia|discriminate|].
    unfold m1. rewrite Eb', map_app. simpl. solve_app. }
  intros _ m ->. apply Forall_inv in inv_trees0 as HT. destruct HT as [_ HT]. simpl in HT. destruct HT as (_ & nd & Hnd & Hl & Hr).
  apply wp_bind. eapply wp_rd; eauto.
  assert (HV : forall e, In e q -> snd e = val (fst e)) by (intros; apply inv_values0; now right).
  destruct l as [|ll li lr]; simpl in Hl; [rewrite Hl|destruct Hl as [-> _]].
  - destruct r as [|rl ri rr]; simpl in Hr; [rewrite Hr|destruct Hr as [-> _]].
    + apply wp_bind. apply queue_pop. intros q' e' HP HH. apply wp_ret. split; [discriminate|]. rewrite removelast_last. apply HNX; auto.
      * simpl. now rewrite HP.
      * intros e He. apply HV. eapply Permutation_in; [symmetry; exact HP|auto].
    + apply wp_bind. apply queued_wp. { apply HB'. simpl. apply in_or_app. right. now left. }
      cbv zeta. apply wp_bind. apply queue_replace with (e := (i, x)). intros q' HP HH. apply wp_ret. split; [discriminate|]. apply HNX; auto.
      * simpl. now rewrite <- HP.
      * intros e He. apply (Permutation_in _ (Permutation_sym HP)) in He as [<-|He]; auto.
  - apply wp_bind. apply queued_wp. { apply HB'. simpl. apply in_or_app. left. apply in_or_app. right. now left. }
    cbv zeta. apply wp_bind. apply queue_replace with (e := (i, x)). intros q' HP HH.
    assert (HV' : forall e, In e q' -> snd e = val (fst e)).
    { intros e He. apply (Permutation_in _ (Permutation_sym HP)) in He as [<-|He]; auto. }
    destruct r as [|rl ri rr]; simpl in Hr; [rewrite Hr|destruct Hr as [-> _]].
    + apply wp_ret. split; [discriminate|]. apply HNX; auto. simpl. now rewrite <- HP.
    + apply wp_bind. apply queued_wp. { apply HB'. rewrite !in_app_iff. simpl. rewrite !in_app_iff. simpl. tauto. }
      apply wp_bind. apply queue_push. intros q2 HP2 HH2. apply wp_ret. split; [discriminate|]. apply HNX; auto.
      * rewrite <- HP2, map_app, <- HP. simpl. constructor. symmetry. apply Permutation_cons_append.
      * intros e He. apply (Permutation_in _ (Permutation_sym HP2)) in He. apply in_app_or in He as [He|[<-|[]]]; auto.
Qed.

Lemma flat_map_nil : forall X Y (f : X -> list Y) l, flat_map f l = [] -> forall x, In x l -> f x = [].
Proof. induction l as [|a l IH]; simpl; intros H x []; apply app_eq_nil in H as [H1 H2]; subst; auto. Qed.

Lemma sort_loop_wp : forall L R nodes rt buf (K : M A unit) (Q : unit -> mem A -> Prop), built n nodes rt -> 0 < n -> buf = map Val xs ->
  (forall ys buf', Permutation xs ys -> (ord -> sorted lt ys) -> length buf' = n -> Forall live buf' -> wp K Q (L ++ map Val ys ++ R ++ buf')) ->
  wp (let* r := queued (length L + n + length R) rt in
      loop (S (S n)) (fun '(first, pq) =>
        let* r := cartesian_step comp proj (length L + n + length R) nodes first pq in
        match r with
        | None => ret (inr tt)
        | Some pq => ret (inl (S first, pq))
        end) (length L, [r]) ;; K) Q
    (L ++ repeat Moved n ++ R ++ buf).
Proof.
  intros L R nodes rt buf K Q (sp & HR & HI & HN & Hne & Hrt & HC) Hn -> HK. set (t := plug sp Leaf).
  assert (HT : rep nodes (Some rt) t). { assert (top None sp = Some rt) as <-. { unfold top. rewrite Hrt. destruct sp; congruence. } apply spine_tree; auto. reflexivity. }
  assert (Hid : ids t = seq 0 n). { unfold t. rewrite ids_plug. simpl. rewrite app_nil_r. auto. }
  assert (HB : forall i, In i (ids t) -> nth_error (map Val xs) i = Some (Val (val i))).
  { intros i Hi. rewrite Hid in Hi. apply in_seq in Hi. rewrite nth_error_map, val_nth by lia. auto. }
  assert (Hroot : t <> Leaf /\ root t = rt). { destruct t as [|l i r]; simpl in HT; [discriminate|]. destruct HT as [[= ->] _]. split; [discriminate|auto]. }
  destruct Hroot as [HtL Hroot].
  assert (Hmv : map val (ids t) = xs).
  { rewrite Hid. apply List.nth_ext with (d := d) (d' := d). { now rewrite map_length, seq_length. }
    rewrite map_length, seq_length. intros i Hi. rewrite (nth_indep _ d (val 0)) by (rewrite map_length, seq_length; auto). rewrite map_nth, seq_nth; auto. }
  apply wp_bind. apply queued_wp.
  { apply buffer_nth. { apply repeat_length. } apply HB. destruct t as [|l i r]; [congruence|]. simpl in Hroot. subst i. simpl. apply in_or_app. right. now left. }
  apply wp_bind. apply wp_mono with (Q := fun _ m => exists ys buf', Permutation xs ys /\ (ord -> sorted lt ys) /\ length buf' = n /\ Forall live buf' /\ m = L ++ map Val ys ++ R ++ buf').
  2:{ intros _ m (ys & buf' & H1 & H2 & H3 & H4 & ->). auto. }
  apply wp_loop' with (I := fun '(first, q) m => exists outs buf ts os, inv nodes outs buf q ts os /\ first = length L + length os /\ m = L ++ outs ++ R ++ buf)
    (mu := fun '(first, q) => match q with [] => 0 | _ => S (length L + n - first) end).
  - exists (repeat Moved n), (map Val xs), [t], []. cj; [|simpl; lia|auto]. constructor; auto.
    + simpl. now rewrite Nat.sub_0_r.
    + simpl. now rewrite Hroot.
    + intros e [<-|[]]. auto.
    + constructor; auto. rewrite Hroot. auto.
    + simpl. rewrite app_nil_r, Hmv. auto.
    + simpl. rewrite app_nil_r, Hid. apply seq_NoDup.
    + apply map_length.
    + apply Forall_forall. intros c Hc. apply in_map_iff in Hc as (? & <- & ?). discriminate.
    + intros i Hi. simpl in Hi. rewrite app_nil_r in Hi. auto.
    + intros Ho. split. { intros i Hi. simpl in Hi. lia. } constructor; auto. unfold t. apply cord_plug; auto. { simpl. auto. } destruct sp as [|[j ?] ?]; auto. intros ? [].
    + intros Ho. split; [apply sorted_nil|]. intros y i [].
  - lia.
  - intros [first q] m (outs & buf & ts & os & HV & -> & ->). apply wp_bind. eapply wp_mono; [eapply step_wp; exact HV|].
    intros [q'|] m' H.
    + destruct H as (Hq & outs' & buf' & ts' & x & HV' & ->). apply wp_ret. cbv beta iota. split.
      * exists outs', buf', ts', (os ++ [x]). rewrite app_length. simpl. cj; auto; lia.
      * pose proof (inv_le _ _ _ _ _ _ HV') as H1. rewrite app_length in H1. simpl in H1. destruct q; [congruence|]. destruct q'; lia.
    + destruct H as [-> ->]. apply wp_ret. destruct HV. simpl in inv_queue0. apply Permutation_nil in inv_queue0. apply map_eq_nil in inv_queue0. subst ts.
      simpl in inv_perm0. rewrite app_nil_r in inv_perm0. pose proof (Permutation_length inv_perm0) as HLo. exists os, buf. cj; auto.
      * symmetry. auto.
      * intros Ho. apply inv_sorted0; auto.
      * subst outs. replace (n - length os) with 0 by lia. simpl. rewrite app_nil_r. auto.
Qed.

End Sort.

Section Statements.
Context {A T : Type} (comp : T -> T -> bool) (proj : A -> T).
Notation lt := (by_proj comp proj).

Lemma cartesian_runs : forall ord : Prop, (ord -> strict_weak_order lt) -> runs (sorting_rel comp proj ord) (cartesian_tree_sorter comp proj).
Proof.
  intros ord HORD pre xs post. unfold cartesian_tree_sorter, cartesian_tree_sort. replace (length pre + length xs - length pre) with (length xs) by lia.
  destruct (Nat.ltb_spec (length xs) 2).
  { exists xs. split; [reflexivity|]. split; auto. intros _. destruct xs as [|x [|y xs]]; [apply sorted_nil|apply sorted_one|simpl in H; lia]. }
  match goal with |- exists ys, ?c ?m = _ /\ _ => assert (wp c (fun _ m' => exists ys, m' = pre ++ map Val ys ++ post /\ sorting_rel comp proj ord xs ys) m) as HG end.
  2:{ apply wp_ok in HG as ([] & m' & E & ys & -> & HR). eauto. }
  destruct xs as [|d xs0] eqn:EX; [simpl in H; lia|]. rewrite <- EX in *. clear EX xs0.
  apply wp_bind. apply wp_alloc. replace (length (pre ++ map Val xs ++ post)) with (length pre + length xs + length post) by lens.
  reshape (moving pre post [] xs). apply wp_bind. eapply wp_mono; [apply (cartesian_tree_wp comp proj ord HORD xs d); lia|].
  intros [nodes rt] m (HB & ->). unfold moving. simpl repeat. simpl map. rewrite app_nil_r. cbn [app].
  assert (HN : length nodes = length xs) by (destruct HB as (? & ? & ? & ? & ?); auto).
  eapply (sort_loop_wp comp proj ord HORD xs d); eauto; [lia|].
  intros ys buf' HP HS HL HF. pose proof (Permutation_length HP) as HLy. apply wp_bind. reshape ((pre ++ map Val ys ++ post) ++ buf' ++ []).
  apply destroy_n_seg; auto; [lens|lia|]. rewrite app_nil_r. rewrite HL. apply wp_dealloc; [lens|]. exists ys. split; auto. split; auto.
Qed.

Lemma cartesian_sorts : strict_weak_order comp -> sorts lt (cartesian_tree_sorter comp proj).
Proof. intros HC. apply sorts_runs; auto. apply cartesian_runs. intros _. now apply swo_by_proj. Qed.
Lemma cartesian_permutes : permutes (cartesian_tree_sorter comp proj).
Proof. apply permutes_runs with (comp := comp) (proj := proj). apply cartesian_runs. tauto. Qed.
End Statements.

(** * The value of the front is not looked at when it is popped *)
Section Framed.
Context {A T : Type} (comp : T -> T -> bool) (proj : A -> T).

(** What is after the memory of a successful run does not matter. *)
Definition framed {X} (c : M A X) : Prop := forall m x m' t, c m = Ok x m' -> c (m ++ t) = Ok x (m' ++ t).

Lemma framed_ret : forall X (x : X), framed (ret x).
Proof. intros X x m y m' t [= <- <-]. reflexivity. Qed.
Lemma framed_bind : forall X Y (c : M A X) (k : X -> M A Y), framed c -> (forall x, framed (k x)) -> framed (bind c k).
Proof.
  intros X Y c k Hc Hk m y m' t. unfold bind. destruct (c m) as [x m1| |] eqn:E; try discriminate. intros E2.
  rewrite (Hc _ _ _ t E). apply Hk. auto.
Qed.
Lemma framed_get : forall i, framed (@get A i).
Proof.
  intros i m x m' t. unfold get. destruct (nth_error m i) as [[| |a]|] eqn:E; try discriminate. intros [= <- <-].
  rewrite nth_error_app1 by (eapply nth_lt; eauto). rewrite E. reflexivity.
Qed.
Lemma framed_take : forall i, framed (@take A i).
Proof.
  intros i m x m' t. unfold take. destruct (nth_error m i) as [[| |a]|] eqn:E; try discriminate. intros [= <- <-].
  pose proof (nth_lt _ _ _ E). rewrite nth_error_app1 by auto. rewrite E. rewrite upd_app_l; auto.
Qed.
Lemma framed_put : forall i a, framed (@put A i a).
Proof.
  intros i a m x m' t. unfold put. destruct (nth_error m i) as [[| |b]|] eqn:E; try discriminate; intros [= <- <-];
  pose proof (nth_lt _ _ _ E); rewrite nth_error_app1 by auto; rewrite E; rewrite upd_app_l; auto.
Qed.
Lemma framed_move_to : forall i j, framed (@move_to A i j).
Proof. intros i j. unfold move_to. destruct (i =? j). { intros m x m' t. discriminate. } apply framed_bind; [apply framed_take|]. intros. apply framed_put. Qed.
Lemma framed_loop : forall S R (body : S -> M A (S + R)) fuel s, (forall s, framed (body s)) -> framed (loop fuel body s).
Proof.
  induction fuel as [|fuel IH]; intros s HB. { intros m x m' t. discriminate. }
  cbn [loop]. apply framed_bind; auto. intros [s'|r]; [apply IH; auto|apply framed_ret].
Qed.

Ltac framed_tac := repeat first
  [ apply framed_ret | apply framed_get | apply framed_take | apply framed_put | apply framed_move_to
  | apply framed_loop; intros ? | apply framed_bind; [|intros ?] | match goal with |- framed (if ?b then _ else _) => destruct b end
  | match goal with |- framed (match ?b with (_, _) => _ end) => destruct b end ].

Lemma framed_push_heap : forall first last len, framed (push_heap comp proj first last len).
Proof. intros. unfold push_heap, less_at. framed_tac.
Qed.

Lemma pop_heap_ignores_the_front : forall e e' (q : list A), exists q',
  pop_heap comp proj 0 (length (e :: q)) (length (e :: q)) (map Val (e :: q)) = Ok tt (map Val (q' ++ [e])) /\
  pop_heap comp proj 0 (length (e' :: q)) (length (e' :: q)) (map Val (e' :: q)) = Ok tt (map Val (q' ++ [e'])).
Proof.
  intros e e' q. destruct q as [|e1 q1]. { exists []. auto. }
  remember (e1 :: q1) as q. assert (Hq : 1 <= length q) by (subst; simpl; lia). clear Heqq e1 q1.
  set (n := length (e :: q)). change (length (e' :: q)) with n.
  assert (Hn : 2 <= n) by (unfold n; simpl; lia).
  pose proof (floyd_sift_down_wp comp proj 0 n (map Val (e :: q)) e Hn) as HF.
  assert (Hfull : full 0 (0 + n) (map Val (e :: q))). { pose proof (full_init [] (e :: q) []) as F. rewrite app_nil_r in F. exact F. }
  specialize (HF Hfull eq_refl). apply wp_ok in HF as (hole & m & E & c & V & -> & Hc & _ & -> & Htop & HP & _).
  rewrite !Nat.add_0_l in *. simpl map in E. simpl upd in E.
  pose proof (pm_decomp [] (e :: q) []) as HD. simpl in HD. rewrite app_nil_r in HD. fold n in HD. destruct (HD V HP) as (v & -> & Hv). rewrite app_nil_r in *. clear HD.
  pose proof (Permutation_length Hv) as HLv. fold n in HLv.
  (* one run, for any value of the front *)
  assert (HG : exists q', forall z, pop_heap comp proj 0 n n (map Val (z :: q)) = Ok tt (map Val (q' ++ [z]))).
  { assert (HT : forall z, pop_heap comp proj 0 n n (map Val (z :: q)) =
      (if c =? n - 1 then put c z else move_to (n - 1) c ;; put (n - 1) z ;; push_heap comp proj 0 (S c) (S c)) (upd c Moved (map Val v))).
    { intros z. unfold pop_heap. destruct (Nat.ltb_spec 1 n); [|lia]. unfold bind at 1. simpl take. unfold take. simpl nth_error. cbv iota. simpl upd.
      unfold bind at 1. rewrite E. rewrite Nat.sub_0_r. reflexivity. }
    rewrite nth_error_map in Htop. destruct (nth_error v c) as [a|] eqn:Ea; simpl in Htop; [|discriminate]. injection Htop as ->.
    destruct (Nat.eqb_spec c (n - 1)) as [Ec|Ec].
    - destruct v as [|y v] using rev_ind; [simpl in HLv; lia|]. clear IHv. rewrite app_length in HLv. simpl in HLv.
      exists v. intros z. rewrite HT. unfold put. replace c with (length (map Val v)) by (rewrite map_length; lia).
      rewrite !map_app. simpl map. rewrite upd_mid. rewrite nth_error_app2, Nat.sub_diag by lia. simpl. rewrite upd_mid. reflexivity.
    - destruct v as [|y v] using rev_ind; [simpl in HLv; lia|]. clear IHv. rewrite app_length in HLv. simpl in HLv.
      rewrite nth_error_app1 in Ea by lia.
      set (w := upd c y v). assert (HLw : length w = length v) by apply upd_length.
      assert (Hpush : wp (push_heap comp proj 0 (0 + c + 1) (c + 1)) (fun _ m' => pm 0 (c + 0 + 1) (map Val w) m' /\ True) (map Val w)).
      { eapply wp_mono; [apply (push_heap_wp comp proj 0 (n - 1) c); [lia|]|intros _ m' [? _]; auto].
        pose proof (full_init [] w []) as F. rewrite app_nil_r in F. replace (n - 1) with (length w) by lia. exact F. }
      apply wp_ok in Hpush as ([] & m' & Ep & HPp & _).
      pose proof (pm_decomp [] w []) as HD. simpl in HD. rewrite app_nil_r in HD. destruct (HD m') as (w' & -> & _). { eapply pm_widen; [exact HPp|lia|lia]. }
      rewrite app_nil_r in *. exists w'. intros z. rewrite HT.
      assert (EU : upd c Moved (map Val (v ++ [y])) = upd c Moved (map Val v) ++ [Val y]). { rewrite map_app. apply upd_app_l. rewrite map_length. lia. }
      rewrite EU. set (u := upd c Moved (map Val v)). assert (HLu : length u = n - 1) by (unfold u; rewrite upd_length, map_length; lia).
      unfold bind at 1. unfold move_to. destruct (Nat.eqb_spec (n - 1) c); [lia|]. unfold bind at 1. unfold take.
      rewrite <- HLu. rewrite nth_error_app2, Nat.sub_diag by lia. simpl nth_error. cbv iota. rewrite upd_mid. unfold put at 1.
      rewrite nth_error_app1 by lia. unfold u at 1. rewrite nth_upd_eq by (rewrite map_length; lia). rewrite upd_app_l by lia.
      assert (EW : upd c (Val y) u = map Val w). { unfold u. rewrite upd_upd. unfold w. clear. revert c. induction v; intros [|c]; simpl; auto. now rewrite IHv. }
      rewrite EW. unfold bind at 1. unfold put. replace (length u) with (length (map Val w)) by (rewrite map_length; lia).
      rewrite nth_error_app2, Nat.sub_diag by lia. simpl nth_error. cbv iota. rewrite upd_mid. rewrite map_app. simpl map.
      apply framed_push_heap. rewrite !Nat.add_1_r, !Nat.add_0_l in Ep. exact Ep. }
  destruct HG as [q' HG]. exists q'. split; apply HG.
Qed.
End Framed.
