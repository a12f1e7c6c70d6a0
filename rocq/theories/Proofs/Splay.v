(** Splaysort. *)
From Coq Require Import List Arith Lia Permutation Bool.
From Verif Require Import Spec.Order Lang.Mem Spec.Sorts Proofs.Wp Proofs.OrderLib Model.Basic Proofs.Basic Model.Rotate Proofs.Rotate
  Model.Indirect Proofs.Indirect Proofs.Stable Model.Select Proofs.Select Proofs.QuickMerge Model.Cartesian Proofs.Cartesian Model.Splay.
Import ListNotations.
Local Arguments nth_error : simpl never.
Local Arguments upd : simpl never.

(** * Trees and zippers in a list of links *)
Inductive side := Lft | Rgt.
Definition other (d : side) : side := match d with Lft => Rgt | Rgt => Lft end.

(** A node whose child on the side [d] is [q], and the other [o]. *)
Definition nd (d : side) (p q o : option nat) : tree_node :=
  match d with
  | Lft => {| parent := p; left_child := q; right_child := o |}
  | Rgt => {| parent := p; left_child := o; right_child := q |}
  end.
Definition tn (d : side) (f : tree) (i : nat) (t : tree) : tree := match d with Lft => Node f i t | Rgt => Node t i f end.

Definition ptr (t : tree) : option nat := match t with Leaf => Some 0 | Node _ i _ => Some (S i) end.
Fixpoint srep (nodes : list tree_node) (par : option nat) (t : tree) : Prop :=
  match t with
  | Leaf => True
  | Node l i r => nth_error nodes (S i) = Some {| parent := par; left_child := ptr l; right_child := ptr r |} /\
      srep nodes (Some (S i)) l /\ srep nodes (Some (S i)) r
  end.

Definition ctx := list (side * nat * tree).
Definition up (c : ctx) : option nat := match c with [] => Some 0 | (_, i, _) :: _ => Some (S i) end.
Fixpoint cplug (c : ctx) (f : tree) : tree := match c with [] => f | (d, i, t) :: c => cplug c (tn d f i t) end.
Fixpoint crep (nodes : list tree_node) (c : ctx) (q : option nat) : Prop :=
  match c with
  | [] => True
  | (d, i, t) :: c => nth_error nodes (S i) = Some (nd d (up c) q (ptr t)) /\ srep nodes (Some (S i)) t /\ crep nodes c (Some (S i))
  end.
Fixpoint before (c : ctx) : list nat :=
  match c with [] => [] | (Lft, i, t) :: c => before c | (Rgt, i, t) :: c => before c ++ ids t ++ [i] end.
Fixpoint after (c : ctx) : list nat :=
  match c with [] => [] | (Lft, i, t) :: c => i :: ids t ++ after c | (Rgt, i, t) :: c => after c end.

Lemma ids_cplug : forall c f, ids (cplug c f) = before c ++ ids f ++ after c.
Proof.
  induction c as [|[[d i] t] c IH]; intros f; simpl. { now rewrite app_nil_r. }
  rewrite IH. destruct d; simpl; rewrite <- !app_assoc; reflexivity.
Qed.

(** The left child of the sentinel is nullptr. *)
Definition sent (nodes : list tree_node) : Prop := exists p r, nth_error nodes 0 = Some {| parent := p; left_child := None; right_child := r |}.
Definition Z (nodes : list tree_node) (c : ctx) (f : tree) : Prop :=
  sent nodes /\ crep nodes c (ptr f) /\ srep nodes (up c) f /\ NoDup (ids (cplug c f)).

Lemma Z_shift : forall nodes d p t c f, Z nodes ((d, p, t) :: c) f <-> Z nodes c (tn d f p t).
Proof. intros. unfold Z. simpl. destruct d; simpl; tauto. Qed.

Lemma srep_frame : forall nodes nodes' t p, (forall i, In i (ids t) -> nth_error nodes' (S i) = nth_error nodes (S i)) -> srep nodes p t -> srep nodes' p t.
Proof.
  induction t as [|l IHl i r IHr]; intros p H; simpl; auto. intros (Hn & Hl & Hr). cj.
  - rewrite H; auto. simpl. apply in_or_app. right. now left.
  - apply IHl; auto. intros j Hj. apply H. simpl. apply in_or_app. auto.
  - apply IHr; auto. intros j Hj. apply H. simpl. apply in_or_app. right. now right.
Qed.
Lemma crep_frame : forall nodes nodes' c q, (forall i, In i (before c ++ after c) -> nth_error nodes' (S i) = nth_error nodes (S i)) -> crep nodes c q -> crep nodes' c q.
Proof.
  induction c as [|[[d i] t] c IH]; intros q H; simpl; auto. intros (Hn & Ht & Hc).
  assert (HI : forall j, j = i \/ In j (ids t) \/ In j (before c ++ after c) -> nth_error nodes' (S j) = nth_error nodes (S j)).
  { intros j Hj. apply H. rewrite in_app_iff in *. destruct d; simpl; rewrite !in_app_iff; simpl; intuition auto. }
  cj.
  - rewrite HI; auto.
  - eapply srep_frame; [|exact Ht]. auto.
  - apply IH; auto.
Qed.

(** Changing the parent of the root. *)
Definition link (t : tree) : nat := match t with Leaf => 0 | Node _ i _ => S i end.
Lemma ptr_link : forall t, ptr t = Some (link t).
Proof. destruct t; auto. Qed.

Ltac perm_count := apply (Permutation_count_occ Nat.eq_dec); intro; repeat (rewrite ?count_occ_app; simpl count_occ);
  repeat match goal with |- context [Nat.eq_dec ?a ?b] => destruct (Nat.eq_dec a b) end; lia.

Section Rotate.
Context {A : Type}.
Implicit Types (nodes : list tree_node) (m : mem A).

Definition with_parent (p : option nat) (n : tree_node) : tree_node := {| parent := p; left_child := left_child n; right_child := right_child n |}.
Definition with_child (d : side) (p : option nat) (n : tree_node) : tree_node :=
  match d with
  | Lft => {| parent := parent n; left_child := p; right_child := right_child n |}
  | Rgt => {| parent := parent n; left_child := left_child n; right_child := p |}
  end.
Definition child (d : side) (n : tree_node) : option nat := match d with Lft => left_child n | Rgt => right_child n end.
Definition set_child (d : side) nodes i p : M A (list tree_node) := match d with Lft => set_left nodes i p | Rgt => set_right nodes i p end.
Definition rot (d : side) nodes node : M A (list tree_node) := match d with Lft => rotate_right nodes node | Rgt => rotate_left nodes node end.

Lemma wp_set_parent : forall nodes i p n m (Q : list tree_node -> mem A -> Prop), nth_error nodes i = Some n ->
  Q (upd i (with_parent p n) nodes) m -> wp (set_parent nodes i p) Q m.
Proof. intros. unfold set_parent. apply wp_bind. eapply wp_rd; eauto. apply wp_wr; auto. eapply nth_lt; eauto. Qed.
Lemma wp_set_child : forall d nodes i p n m (Q : list tree_node -> mem A -> Prop), nth_error nodes i = Some n ->
  Q (upd i (with_child d p n) nodes) m -> wp (set_child d nodes i p) Q m.
Proof. intros. destruct d; simpl; unfold set_left, set_right; apply wp_bind; eapply wp_rd; eauto; apply wp_wr; auto; eapply nth_lt; eauto. Qed.
Lemma wp_deref : forall i m (Q : nat -> mem A -> Prop), Q i m -> wp (deref (Some i)) Q m.
Proof. intros. exact H. Qed.

Lemma rot_unfold : forall d nodes node, rot d nodes node =
  (let* n := rd nodes node in
   let* par := deref (parent n) in
   let* p := rd nodes par in
   let* grand_parent := deref (parent p) in
   let old := child (other d) n in
   let* nodes := set_child (other d) nodes node (Some par) in
   let* nodes := set_child d nodes par old in
   let* child := deref old in
   let* nodes := set_parent nodes child (Some par) in
   let* p := rd nodes par in
   let* nodes := set_parent nodes par (Some node) in
   let* nodes := set_parent nodes node (parent p) in
   let* g := rd nodes grand_parent in
   if points_to (left_child g) par then set_child Lft nodes grand_parent (Some node) else set_child Rgt nodes grand_parent (Some node)).
Proof. destruct d; reflexivity. Qed.

Lemma child_nd : forall d p q o, child d (nd d p q o) = q.
Proof. destruct d; auto. Qed.
Lemma child_other_nd : forall d p q o, child (other d) (nd d p q o) = o.
Proof. destruct d; auto. Qed.
Lemma with_child_nd : forall d p q o q', with_child d q' (nd d p q o) = nd d p q' o.
Proof. destruct d; auto. Qed.
Lemma with_child_other_nd : forall d p q o q', with_child (other d) q' (nd d p q o) = nd d p q q'.
Proof. destruct d; auto. Qed.
Lemma with_parent_nd : forall d p q o p', with_parent p' (nd d p q o) = nd d p' q o.
Proof. destruct d; auto. Qed.
Lemma parent_nd : forall d p q o, parent (nd d p q o) = p.
Proof. destruct d; auto. Qed.
Lemma srep_tn : forall nodes p d f i t, srep nodes p (tn d f i t) <->
  nth_error nodes (S i) = Some (nd d p (ptr f) (ptr t)) /\ srep nodes (Some (S i)) f /\ srep nodes (Some (S i)) t.
Proof. intros. destruct d; simpl; tauto. Qed.
Lemma ptr_tn : forall d f i t, ptr (tn d f i t) = Some (S i).
Proof. destruct d; auto. Qed.
Lemma ids_tn : forall d f i t j, In j (ids (tn d f i t)) <-> In j (ids f) \/ j = i \/ In j (ids t).
Proof. intros. destruct d; simpl; rewrite in_app_iff; simpl; intuition auto. Qed.

Lemma srep_root : forall nodes p t, srep nodes p t -> t <> Leaf -> exists n, nth_error nodes (link t) = Some n.
Proof. intros nodes p [|l i r] H Hne; [congruence|]. destruct H as [H _]. simpl. eauto. Qed.

Lemma in_ctx : forall d g u c j, In j (before ((d, g, u) :: c) ++ after ((d, g, u) :: c)) <-> j = g \/ In j (ids u) \/ In j (before c ++ after c).
Proof. intros. destruct d; simpl; repeat (rewrite ?in_app_iff; simpl); intuition auto. Qed.

(** The parts of a list without duplicates. *)
Lemma nodup_parts : forall (x p : nat) (A B T C : list nat), NoDup (x :: p :: A ++ B ++ T ++ C) ->
  x <> p /\ (forall j, In j A -> j <> x /\ j <> p /\ ~ In j B /\ ~ In j T /\ ~ In j C) /\
  (forall j, In j B -> j <> x /\ j <> p /\ ~ In j T /\ ~ In j C) /\ (forall j, In j T -> j <> x /\ j <> p /\ ~ In j C) /\
  (forall j, In j C -> j <> x /\ j <> p) /\ NoDup B /\ NoDup C.
Proof.
  intros x p A0 B T C H.
  assert (HD : forall (l1 l2 : list nat), NoDup (l1 ++ l2) -> forall j, In j l1 -> ~ In j l2).
  { clear. induction l1 as [|a l1 IH]; intros l2 H j [].
    - subst. inversion H; subst. intros Hj. apply H2. apply in_or_app. auto.
    - inversion H; subst. apply IH; auto. }
  assert (HR : forall (l1 l2 : list nat), NoDup (l1 ++ l2) -> NoDup l2).
  { clear. induction l1; simpl; auto. intros l2 H. inversion H; auto. }
  assert (HL : forall (l1 l2 : list nat), NoDup (l1 ++ l2) -> NoDup l1).
  { clear. induction l1; simpl; intros l2 H; constructor; inversion H; subst; eauto. intros Hi. apply H2. apply in_or_app. auto. }
  inversion H; subst. inversion H3; subst.
  pose proof (HD _ _ H5) as DA. pose proof (HR _ _ H5) as NB. pose proof (HD _ _ NB) as DB. pose proof (HR _ _ NB) as NT. pose proof (HD _ _ NT) as DT.
  assert (HX : x <> p /\ ~ In x (A0 ++ B ++ T ++ C)). { split; [intros ->; apply H2; now left|intros Hi; apply H2; now right]. }
  destruct HX as [Hxp HX]. rewrite !in_app_iff in HX, H4.
  split; auto. split. { intros j Hj. specialize (DA j Hj). rewrite !in_app_iff in DA. cj; try tauto; intros ->; tauto. }
  split. { intros j Hj. specialize (DB j Hj). rewrite !in_app_iff in DB. cj; try tauto; intros ->; tauto. }
  split. { intros j Hj. specialize (DT j Hj). cj; try tauto; intros ->; tauto. }
  split. { intros j Hj. cj; intros ->; tauto. }
  split; eauto.
Qed.

Lemma rot_wp : forall d nodes p t c a x b m, Z nodes ((d, p, t) :: c) (tn d a x b) ->
  wp (rot d nodes (S x)) (fun nodes' m' => m' = m /\ length nodes' = length nodes /\ Z nodes' c (tn d a x (tn d b p t))) m.
Proof.
  intros d nodes p t c a x b m (HS & HC & HF & ND). rewrite rot_unfold.
  simpl up in HF. apply srep_tn in HF as (Hx & Ha & Hb). rewrite ptr_tn in HC. simpl in HC. destruct HC as (Hp & Ht & Hc).
  assert (EI : ids (cplug ((d, p, t) :: c) (tn d a x b)) = ids (cplug c (tn d a x (tn d b p t)))).
  { simpl. rewrite !ids_cplug. f_equal. f_equal. destruct d; simpl; rewrite <- !app_assoc; reflexivity. }
  (* what is disjoint *)
  assert (NDx : NoDup (x :: p :: ids a ++ ids b ++ ids t ++ before c ++ after c)).
  { eapply Permutation_NoDup; [|exact ND]. rewrite EI, ids_cplug. destruct d; simpl; perm_count. }
  apply nodup_parts in NDx as (Hxp & DA & DB & DT & DC & NB & NC).
  assert (Lx := nth_lt _ _ _ Hx). assert (Lp := nth_lt _ _ _ Hp).
  destruct HS as (sp & sr & HS).
  (* the links of the root of [b] *)
  assert (HB : exists nb, nth_error nodes (link b) = Some nb /\ link b <> S x /\ link b <> S p).
  { destruct b as [|b1 i b2]; simpl; [eauto|]. destruct Hb as [Hb _]. eexists. split; [exact Hb|]. destruct (DB i). { simpl. apply in_or_app. right. now left. } lia. }
  destruct HB as (nb & Hnb & Hbx & Hbp). assert (Lb := nth_lt _ _ _ Hnb).
  (* the grand parent *)
  assert (HG : exists g ng, up c = Some g /\ g <> S x /\ g <> S p /\ nth_error nodes g = Some ng /\ (g = link b -> g = 0)).
  { destruct c as [|[[d' g] u] c]. { exists 0. eexists. cj; auto. exact HS. }
    exists (S g). destruct Hc as [Hc _]. eexists. destruct (DC g). { apply in_ctx. auto. } cj; auto. exact Hc.
    intros E. destruct b as [|b1 i b2]; simpl in E; [discriminate|]. injection E as ->. destruct (DB i) as (_ & _ & _ & HX). { simpl. apply in_or_app. right. now left. } destruct HX. apply in_ctx. auto. }
  destruct HG as (g & ng & Eup & Hgx & Hgp & Hng & Hgb). assert (Lg := nth_lt _ _ _ Hng).
  apply wp_bind. eapply wp_rd; eauto. rewrite parent_nd. apply wp_bind, wp_deref. apply wp_bind. eapply wp_rd; eauto. rewrite parent_nd, Eup. apply wp_bind, wp_deref.
  rewrite child_other_nd. cbv zeta. apply wp_bind. eapply wp_set_child; eauto. rewrite with_child_other_nd.
  apply wp_bind. eapply wp_set_child; [rewrite nth_upd_ne by lia; exact Hp|]. rewrite with_child_nd. rewrite ptr_link. apply wp_bind, wp_deref.
  apply wp_bind. eapply wp_set_parent; [rewrite !nth_upd_ne by lia; exact Hnb|].
  apply wp_bind. eapply wp_rd; [rewrite nth_upd_ne by lia; apply nth_upd_eq; rewrite ?upd_length; auto|]. rewrite parent_nd.
  apply wp_bind. eapply wp_set_parent; [rewrite nth_upd_ne by lia; apply nth_upd_eq; rewrite ?upd_length; auto|]. rewrite with_parent_nd.
  apply wp_bind. eapply wp_set_parent; [rewrite !nth_upd_ne by lia; apply nth_upd_eq; rewrite ?upd_length; auto|]. rewrite with_parent_nd.
  match goal with |- context [rd ?l g] => set (n5 := l) end.
  assert (L5 : length n5 = length nodes) by (unfold n5; rewrite ?upd_length; auto).
  assert (F5x : nth_error n5 (S x) = Some (nd d (up c) (ptr a) (Some (S p)))). { unfold n5. rewrite nth_upd_eq; [auto|rewrite ?upd_length; auto]. }
  assert (F5p : nth_error n5 (S p) = Some (nd d (Some (S x)) (ptr b) (ptr t))).
  { unfold n5. rewrite nth_upd_ne by lia. rewrite nth_upd_eq; [|rewrite ?upd_length; auto]. rewrite (ptr_link b). auto. }
  assert (F5b : nth_error n5 (link b) = Some (with_parent (Some (S p)) nb)).
  { unfold n5. do 2 rewrite nth_upd_ne by lia. apply nth_upd_eq. rewrite ?upd_length; auto. }
  assert (F5 : forall j, j <> S x -> j <> S p -> j <> link b -> nth_error n5 j = nth_error nodes j).
  { intros j H1 H2 H3. unfold n5. rewrite !nth_upd_ne by auto. auto. }
  clearbody n5.
  (* the grand parent after the other assignments *)
  assert (HG : exists ng', nth_error n5 g = Some ng' /\ left_child ng' = left_child ng /\ right_child ng' = right_child ng /\ (g <> 0 -> ng' = ng)).
  { destruct (Nat.eq_dec g (link b)) as [E|E].
    - rewrite E. eexists. split; [exact F5b|]. assert (nb = ng) by congruence. subst nb. cj; auto. intros H0. destruct H0. rewrite <- E. auto.
    - exists ng. rewrite F5 by auto. auto. }
  destruct HG as (ng' & Hng' & El & Er & Ene).
  apply wp_bind. eapply wp_rd; eauto.
  (* the last assignment *)
  assert (HK : forall d' n6, (g = 0 -> d' = Rgt) -> n6 = upd g (with_child d' (Some (S x)) ng') n5 ->
    (match c with [] => True | (d1, _, _) :: _ => d1 = d' end) -> m = m /\ length n6 = length nodes /\ Z n6 c (tn d a x (tn d b p t))).
  { intros d' n6 Hd' E6 Hd1. split; auto. split. { rewrite E6, upd_length. auto. }
    assert (F6 : forall j, j <> g -> nth_error n6 j = nth_error n5 j). { intros j Hj. rewrite E6. apply nth_upd_ne; auto. }
    assert (F6g : nth_error n6 g = Some (with_child d' (Some (S x)) ng')). { rewrite E6. apply nth_upd_eq. rewrite L5; auto. }
    assert (FF : forall j, j <> x -> j <> p -> S j <> link b -> S j <> g -> nth_error n6 (S j) = nth_error nodes (S j)).
    { intros j H1 H2 H3 H4. rewrite F6 by auto. apply F5; auto. }
    assert (Hlb : forall j, S j = link b -> In j (ids b)). { intros j E. destruct b; [discriminate|]. injection E as ->. simpl. apply in_or_app. right. now left. }
    assert (Hgc : forall j, S j = g -> In j (before c ++ after c)).
    { intros j E. destruct c as [|[[? ?] ?] ?]; simpl in Eup; [injection Eup as <-; discriminate|]. apply in_ctx. left. congruence. }
    unfold Z. cj.
    - destruct (Nat.eq_dec g 0) as [->|Hg0].
      + rewrite Hd' in F6g by auto. rewrite HS in Hng. injection Hng as <-. simpl in El, Er. destruct ng'. simpl in *. subst. unfold sent. rewrite F6g. eauto.
      + destruct (Nat.eq_dec (link b) 0) as [E0|E0].
        * exists (Some (S p)), sr. rewrite F6 by auto. rewrite <- E0, F5b. rewrite E0 in Hnb. rewrite HS in Hnb. injection Hnb as <-. reflexivity.
        * exists sp, sr. rewrite F6, F5 by auto. auto.
    - rewrite ptr_tn. destruct c as [|[[d1 g1] u] c]; simpl; auto. simpl in Hc. destruct Hc as (Hc1 & Hc2 & Hc3). simpl in Eup. injection Eup as <-.
      rewrite Hng in Hc1. injection Hc1 as ->. rewrite Ene in * by lia. subst d1.
      assert (NG : NoDup (g1 :: ids u ++ before c ++ after c)). { eapply Permutation_NoDup; [|exact NC]. destruct d'; simpl; perm_count. }
      inversion NG as [|? ? NG1 NG2]. subst. rewrite in_app_iff in NG1. cj.
      + rewrite F6g, with_child_nd. reflexivity.
      + eapply srep_frame; [|exact Hc2]. intros j Hj. assert (HI : In j (before ((d', g1, u) :: c) ++ after ((d', g1, u) :: c))) by (apply in_ctx; auto).
        destruct (DC j HI). apply FF; auto. { intros E. apply Hlb in E. destruct (DB j E) as (_ & _ & _ & H'). auto. }
        intros [= ->]. tauto.
      + eapply crep_frame; [|exact Hc3]. intros j Hj. assert (HI : In j (before ((d', g1, u) :: c) ++ after ((d', g1, u) :: c))) by (apply in_ctx; auto).
        destruct (DC j HI). apply FF; auto. { intros E. apply Hlb in E. destruct (DB j E) as (_ & _ & _ & H'). auto. }
        intros [= ->]. tauto.
    - apply srep_tn. rewrite ptr_tn. cj.
      + rewrite F6 by auto. auto.
      + eapply srep_frame; [|exact Ha]. intros j Hj. destruct (DA j Hj) as (H1 & H2 & H3 & H4 & H5). apply FF; auto.
      + apply srep_tn. cj.
        * rewrite F6 by auto. auto.
        * destruct b as [|b1 i b2]; simpl; auto. simpl in Hb, Hnb, F5b, FF, Hgb. destruct Hb as (Hb0 & Hb1 & Hb2). cj.
          -- rewrite F6. 2:{ intros E. destruct (DB i) as (_ & _ & _ & H). { simpl. apply in_or_app. right. now left. } apply H. auto. }
             rewrite F5b. rewrite Hb0 in Hnb. injection Hnb as <-. reflexivity.
          -- eapply srep_frame; [|exact Hb1]. intros j Hj. assert (HI : In j (ids (Node b1 i b2))) by (simpl; apply in_or_app; auto).
             destruct (DB j HI) as (H1 & H2 & H3 & H4). apply FF; auto. intros [= ->]. simpl in NB. apply NoDup_remove_2 in NB. apply NB. apply in_or_app. auto.
          -- eapply srep_frame; [|exact Hb2]. intros j Hj. assert (HI : In j (ids (Node b1 i b2))) by (simpl; apply in_or_app; right; now right).
             destruct (DB j HI) as (H1 & H2 & H3 & H4). apply FF; auto. intros [= ->]. simpl in NB. apply NoDup_remove_2 in NB. apply NB. apply in_or_app. auto.
        * eapply srep_frame; [|exact Ht]. intros j Hj. destruct (DT j Hj) as (H1 & H2 & H3). apply FF; auto. intros E. apply Hlb in E. destruct (DB j E) as (_ & _ & H4 & _). auto.
    - rewrite <- EI. auto. }
  destruct (points_to (left_child ng') (S p)) eqn:EP.
  - eapply wp_set_child; eauto. apply HK with (d' := Lft); auto.
    + intros E. subst g. rewrite HS in Hng. injection Hng as <-. rewrite El in EP. discriminate.
    + destruct c as [|[[d1 g1] u] c]; auto. destruct d1; auto. exfalso. simpl in Hc. destruct Hc as (Hc1 & _). simpl in Eup. injection Eup as <-.
      rewrite Hng in Hc1. injection Hc1 as ->. rewrite El in EP. simpl in EP. rewrite ptr_link in EP. simpl in EP. apply Nat.eqb_eq in EP.
      destruct u as [|u1 k u2]; [discriminate|]. injection EP as ->. destruct (DC p) as [_ H]; [|auto]. apply in_ctx. right. left. simpl. apply in_or_app. right. now left.
  - eapply wp_set_child; eauto. apply HK with (d' := Rgt); auto.
    destruct c as [|[[d1 g1] u] c]; auto. destruct d1; auto. exfalso. simpl in Hc. destruct Hc as (Hc1 & _). simpl in Eup. injection Eup as <-.
    rewrite Hng in Hc1. injection Hc1 as ->. rewrite El in EP. simpl in EP. rewrite Nat.eqb_refl in EP. discriminate.
Qed.

Lemma rot_ids : forall d p t c a x b, ids (cplug ((d, p, t) :: c) (tn d a x b)) = ids (cplug c (tn d a x (tn d b p t))).
Proof. intros. simpl. rewrite !ids_cplug. f_equal. f_equal. destruct d; simpl; rewrite <- !app_assoc; reflexivity. Qed.

Lemma points_to_ptr : forall t x, ~ In x (ids t) -> points_to (ptr t) (S x) = false.
Proof. intros [|l i r] x H; simpl; auto. apply Nat.eqb_neq. intros ->. apply H. simpl. apply in_or_app. right. now left. Qed.

Lemma flip_tn : forall d a x b, tn d a x b = tn (other d) b x a.
Proof. destruct d; auto. Qed.

Lemma Z_frame_nodup : forall nodes d p t c f, Z nodes ((d, p, t) :: c) f -> NoDup (p :: ids t ++ ids f ++ before c ++ after c).
Proof. intros nodes d p t c f (_ & _ & _ & H). simpl in H. rewrite ids_cplug in H. eapply Permutation_NoDup; [|exact H]. destruct d; simpl; perm_count. Qed.

Lemma nodup_app_disj : forall (l1 l2 : list nat), NoDup (l1 ++ l2) -> forall j, In j l1 -> ~ In j l2.
Proof.
  induction l1 as [|a l1 IH]; intros l2 H j []; inversion H as [|? ? N1 N2]; subst; [intros Hj; apply N1; apply in_or_app; auto|apply IH; auto].
Qed.
Lemma Z_points : forall nodes d p t c f par x, Z nodes ((d, p, t) :: c) f -> In x (ids f) ->
  points_to (left_child (nd d par (Some (S x)) (ptr t))) (S x) = match d with Lft => true | Rgt => false end.
Proof.
  intros nodes d p t c f par x HZ Hx. destruct d; simpl. { apply Nat.eqb_refl. } apply points_to_ptr. intros Ht.
  apply Z_frame_nodup in HZ. inversion HZ as [|? ? N1 N2]; subst. apply nodup_app_disj with (j := x) in N2; auto. apply N2. apply in_or_app. auto.
Qed.

(** What a step of [splay] does. *)
Definition splayed nodes c0 x f m : list tree_node -> mem A -> Prop := fun nodes' m' => m' = m /\ length nodes' = length nodes /\
  exists c' a' b', length c' < length c0 /\ Z nodes' c' (Node a' x b') /\ ids (cplug c' (Node a' x b')) = ids (cplug c0 f).
Lemma tn_node : forall d l i r, exists l' r', tn d l i r = Node l' i r'.
Proof. intros []; simpl; eauto. Qed.

Lemma zig_wp : forall nodes d p t c a x b m, Z nodes ((d, p, t) :: c) (tn d a x b) ->
  wp (rot d nodes (S x)) (splayed nodes ((d, p, t) :: c) x (tn d a x b) m) m.
Proof.
  intros nodes d p t c a x b m HZ. eapply wp_mono; [apply rot_wp; eauto|]. intros nodes' m' (-> & HL & HZ'). unfold splayed. cj; auto.
  destruct (tn_node d a x (tn d b p t)) as (l' & r' & E). exists c, l', r'. rewrite E in HZ'. cj; auto. rewrite <- E, <- rot_ids. reflexivity.
Qed.
Lemma zig_zig_wp : forall nodes d p t g u c a x b m, Z nodes ((d, p, t) :: (d, g, u) :: c) (tn d a x b) ->
  wp (let* nodes := rot d nodes (S p) in rot d nodes (S x)) (splayed nodes ((d, p, t) :: (d, g, u) :: c) x (tn d a x b) m) m.
Proof.
  intros nodes d p t g u c a x b m HZ. apply wp_bind. apply (proj1 (Z_shift _ _ _ _ _ _)) in HZ. eapply wp_mono; [apply rot_wp; eauto|].
  intros n1 m1 (-> & HL1 & HZ1). apply (proj2 (Z_shift _ _ _ _ _ _)) in HZ1. eapply wp_mono; [apply zig_wp; eauto|].
  intros n2 m2 (-> & HL2 & c' & a' & b' & HC & HZ2 & HI). unfold splayed. cj; auto; [congruence|]. exists c', a', b'. cj; auto. { simpl in *. lia. }
  rewrite HI. symmetry. apply (rot_ids d g u c (tn d a x b) p t).
Qed.
Lemma zig_zag_wp : forall nodes d p t g u c a x b m, Z nodes ((d, p, t) :: (other d, g, u) :: c) (tn d a x b) ->
  wp (let* nodes := rot d nodes (S x) in rot (other d) nodes (S x)) (splayed nodes ((d, p, t) :: (other d, g, u) :: c) x (tn d a x b) m) m.
Proof.
  intros nodes d p t g u c a x b m HZ. apply wp_bind. eapply wp_mono; [apply rot_wp; eauto|].
  intros n1 m1 (-> & HL1 & HZ1). rewrite flip_tn in HZ1. eapply wp_mono; [apply zig_wp; eauto|].
  intros n2 m2 (-> & HL2 & c' & a' & b' & HC & HZ2 & HI). unfold splayed. cj; auto; [congruence|]. exists c', a', b'. cj; auto. { simpl in *. lia. }
  rewrite HI. rewrite <- flip_tn. symmetry. apply rot_ids.
Qed.

Lemma splay_step_wp : forall nodes d p t c a x b m, Z nodes ((d, p, t) :: c) (Node a x b) ->
  wp (splay_step nodes (S x) (S p)) (splayed nodes ((d, p, t) :: c) x (Node a x b) m) m.
Proof.
  intros nodes d p t c a0 x b0 m HZ. unfold splay_step. pose proof HZ as (_ & HC & _). simpl in HC. destruct HC as (Hp & _ & Hc).
  assert (Hin : In x (ids (Node a0 x b0))) by (simpl; apply in_or_app; right; now left).
  apply wp_bind. eapply wp_rd; eauto. rewrite parent_nd. rewrite (Z_points _ _ _ _ _ _ _ _ HZ Hin). apply wp_bind.
  assert (exists a b, Node a0 x b0 = tn d a x b) as (a & b & E) by (destruct d; simpl; eauto). rewrite E in *.
  destruct c as [|[[d' g] u] c].
  - simpl up. apply wp_deref. simpl. pose proof (zig_wp nodes d p t [] a x b m HZ) as H. destruct d; exact H.
  - simpl up. apply wp_deref. simpl Nat.eqb. cbv iota. simpl in Hc. destruct Hc as (Hg & _ & _). apply wp_bind. eapply wp_rd; eauto.
    rewrite (Z_points nodes d' g u c (tn d (tn d a x b) p t) (up c) p); [|exact (proj1 (Z_shift _ _ _ _ _ _) HZ)|apply ids_tn; auto].
    destruct d, d'; cbv iota.
    + apply (zig_zig_wp nodes Lft p t g u c a x b m HZ).
    + apply (zig_zag_wp nodes Lft p t g u c a x b m HZ).
    + apply (zig_zag_wp nodes Rgt p t g u c a x b m HZ).
    + apply (zig_zig_wp nodes Rgt p t g u c a x b m HZ).
Qed.

Lemma Z_parent : forall nodes c a x b, Z nodes c (Node a x b) -> nth_error nodes (S x) = Some {| parent := up c; left_child := ptr a; right_child := ptr b |}.
Proof. intros nodes c a x b (_ & _ & (H & _) & _). auto. Qed.

Lemma ctx_bound : forall nodes c q, crep nodes c q -> forall i, In i (map (fun e => snd (fst e)) c) -> S i < length nodes.
Proof.
  induction c as [|[[d i] t] c IH]; intros q HC j Hj; [destruct Hj|]. destruct HC as (H1 & _ & H2). destruct Hj as [<-|Hj]; [eapply nth_lt; eauto|eapply IH; eauto].
Qed.
Lemma incl_seq_length : forall (l : list nat) n, NoDup l -> (forall i, In i l -> S i < n) -> length l <= n.
Proof.
  intros l n HN HB. rewrite <- (seq_length n 0). apply NoDup_incl_length; auto. intros i Hi. apply in_seq. specialize (HB i Hi). lia.
Qed.
Lemma ctx_length : forall nodes c f, Z nodes c f -> length c <= length nodes.
Proof.
  intros nodes c f (_ & HC & _ & HN). rewrite <- (map_length (fun e => snd (fst e))). apply incl_seq_length; [|eapply ctx_bound; eauto].
  rewrite ids_cplug in HN. assert (NoDup (before c ++ after c)) as ND.
  { assert (forall l1 l2 : list nat, NoDup (l1 ++ l2) -> NoDup l2) as HR. { clear. induction l1; simpl; auto. intros l2 H. inversion H; auto. }
    apply (HR (ids f)). eapply Permutation_NoDup; [|exact HN]. perm_count. }
  clear - ND. induction c as [|[[d i] t] c IH]; simpl; constructor.
  - assert (NoDup (i :: ids t ++ before c ++ after c)) as N. { eapply Permutation_NoDup; [|exact ND]. destruct d; simpl; perm_count. }
    inversion N; subst. intros Hi. apply H1. apply in_or_app. right. clear - Hi. induction c as [|[[d j] t] c IH]; [destruct Hi|]. apply in_ctx. simpl in Hi. destruct Hi; auto.
  - apply IH. assert (NoDup ((i :: ids t) ++ before c ++ after c)) as N. { eapply Permutation_NoDup; [|exact ND]. destruct d; simpl; perm_count. }
    assert (forall l1 l2 : list nat, NoDup (l1 ++ l2) -> NoDup l2) as HR. { clear. induction l1; simpl; auto. intros l2 H. inversion H; auto. }
    eapply HR; eauto.
Qed.

Lemma splay_wp : forall nodes c a x b m, c <> [] -> Z nodes c (Node a x b) ->
  wp (splay nodes (S x)) (fun nodes' m' => m' = m /\ length nodes' = length nodes /\
    exists a' b', Z nodes' [] (Node a' x b') /\ ids (Node a' x b') = ids (cplug c (Node a x b))) m.
Proof.
  intros nodes c a x b m Hc HZ. unfold splay. apply wp_bind. eapply wp_rd; [eapply Z_parent; eauto|]. simpl parent.
  destruct c as [|[[d p] t] c]; [congruence|]. simpl up. apply wp_bind, wp_deref. apply wp_bind, wp_assert; [reflexivity|].
  pose proof (ctx_length _ _ _ HZ) as HB.
  eapply wp_loop_k with (k := length ((d, p, t) :: c)) (I := fun k '(n, par) m' => m' = m /\ length n = length nodes /\ exists d' p' t' c' a' b', par = S p' /\
      k = length ((d', p', t') :: c') /\ Z n ((d', p', t') :: c') (Node a' x b') /\
      ids (cplug ((d', p', t') :: c') (Node a' x b')) = ids (cplug ((d, p, t) :: c) (Node a x b))).
  - cj; auto. exists d, p, t, c, a, b. auto.
  - simpl in *. lia.
  - intros k [n par] m' (-> & HL & d' & p' & t' & c' & a' & b' & -> & Hk & HZ' & HI). apply wp_bind. eapply wp_mono; [apply splay_step_wp; eauto|].
    intros n' m' (-> & HL' & c2 & a2 & b2 & Hc2 & HZ2 & HI2). apply wp_bind. eapply wp_rd; [eapply Z_parent; eauto|]. simpl parent.
    destruct c2 as [|[[d2 p2] t2] c2]; simpl up.
    + apply wp_bind, wp_deref. simpl. apply wp_ret. cj; auto; [congruence|]. exists a2, b2. split; auto. etransitivity; [exact HI2|exact HI].
    + apply wp_bind, wp_deref. simpl negb. apply wp_ret. exists (length ((d2, p2, t2) :: c2)). split; [lia|]. cj; auto; [congruence|].
      exists d2, p2, t2, c2, a2, b2. cj; auto. etransitivity; [exact HI2|exact HI].
Qed.
End Rotate.

(** * The construction of the tree *)
Section Sort.
Context {A T : Type} (comp : T -> T -> bool) (proj : A -> T).
Notation lt := (by_proj comp proj).
Variable ord : Prop.
Hypothesis HORD : ord -> strict_weak_order lt.
Variables (xs : list A) (d0 : A).
Notation n := (length xs).
Notation val := (val xs d0).
Implicit Types (L R : mem A).

Lemma Z_extend : forall nodes d c i t k, Z nodes c (tn d Leaf i t) -> length nodes = S k -> ~ In k (ids (cplug c (tn d Leaf i t))) ->
  forall nodes', nodes' = upd (S i) (nd d (up c) (Some (S k)) (ptr t)) (nodes ++ [{| parent := Some (S i); left_child := to_sentinel; right_child := to_sentinel |}]) ->
  Z nodes' ((d, i, t) :: c) (Node Leaf k Leaf).
Proof.
  intros nodes d c i t k (HS & HC & HF & ND) HL Hk nodes' ->. apply srep_tn in HF as (Hi & _ & Ht). pose proof (nth_lt _ _ _ Hi) as Li.
  assert (HD : forall j, In j (ids (cplug c (tn d Leaf i t))) <-> j = i \/ In j (ids t) \/ In j (before c ++ after c)).
  { intros j. rewrite ids_cplug, !in_app_iff, ids_tn. simpl. tauto. }
  rewrite HD in Hk.
  set (new := {| parent := Some (S i); left_child := to_sentinel; right_child := to_sentinel |}).
  assert (NDx : NoDup (i :: ids t ++ before c ++ after c)).
  { eapply Permutation_NoDup; [|exact ND]. rewrite ids_cplug. destruct d; simpl; perm_count. }
  inversion NDx as [|? ? N1 N2]; subst. rewrite in_app_iff in N1.
  assert (FF : forall j, j <> S i -> j < length nodes -> nth_error (upd (S i) (nd d (up c) (Some (S k)) (ptr t)) (nodes ++ [new])) j = nth_error nodes j).
  { intros j Hj Hl. rewrite nth_upd_ne by auto. apply nth_error_app1. auto. }
  assert (HB : forall j, In j (ids t) -> S j < length nodes).
  { clear - Ht. revert Ht. generalize (Some (S i)). induction t as [|l IHl x r IHr]; intros p Ht j Hj; [destruct Hj|]. destruct Ht as (H1 & H2 & H3). simpl in Hj.
    apply in_app_or in Hj as [Hj|[<-|Hj]]; eauto. eapply nth_lt; eauto. }
  assert (HBc : forall j, In j (before c ++ after c) -> S j < length nodes).
  { clear - HC. revert HC. generalize (ptr (tn d Leaf i t)). induction c as [|[[d1 g] u] c IH]; intros q HC j Hj; [destruct Hj|]. destruct HC as (H1 & H2 & H3).
    apply in_ctx in Hj as [->|[Hj|Hj]]; eauto; [eapply nth_lt; eauto|].
    clear - H2 Hj. revert H2 j Hj. generalize (Some (S g)). induction u as [|l IHl x r IHr]; intros p Ht j Hj; [destruct Hj|]. destruct Ht as (H1 & H2 & H3). simpl in Hj.
    apply in_app_or in Hj as [Hj|[<-|Hj]]; eauto. eapply nth_lt; eauto. }
  unfold Z. cj.
  - destruct HS as (p & r & HS). exists p, r. rewrite FF; auto. lia.
  - simpl. cj.
    + apply nth_upd_eq. rewrite app_length. lia.
    + eapply srep_frame; [|exact Ht]. intros j Hj. apply FF; auto. intros [= ->]. tauto.
    + rewrite ptr_tn in HC. eapply crep_frame; [|exact HC]. intros j Hj. apply FF; auto. intros [= ->]. tauto.
  - simpl. cj; auto. rewrite nth_upd_ne. 2:{ intros [= ->]. tauto. } rewrite nth_error_app2, HL, Nat.sub_diag by lia. reflexivity.
  - assert (NoDup (k :: i :: ids t ++ before c ++ after c)) as NF. { constructor; auto. simpl. rewrite in_app_iff. intros [->|[Hj|Hj]]; tauto. }
    eapply Permutation_NoDup; [|exact NF]. rewrite ids_cplug. destruct d; simpl; perm_count.
Qed.

(** [k] elements are in the tree. *)
Definition sbuilt (k : nat) (nodes : list tree_node) (rt : nat) : Prop :=
  exists t, Z nodes [] t /\ t <> Leaf /\ rt = link t /\ length nodes = S k /\ Permutation (ids t) (seq 0 k) /\
    stable_rel lt ord (firstn k xs) (map val (ids t)).

Lemma emplace_wp : forall L R a x b nodes par (Q : list tree_node * nat -> mem A -> Prop), n = length a + S (length b) -> length nodes = S (length a) ->
  Q (nodes ++ [{| parent := Some par; left_child := to_sentinel; right_child := to_sentinel |}], length nodes) (moving L R (a ++ [x]) b) ->
  wp (emplace_node (length L + n + length R) (length L + length a) nodes par) Q (moving L R a (x :: b)).
Proof.
  intros L R a x b nodes par Q HN HL HQ. unfold emplace_node. rewrite HL in *. unfold value_of.
  change (wp (let* x0 := take (length L + length a) in construct (length L + n + length R + length a) x0 ;; 
    ret (nodes ++ [{| parent := Some par; left_child := to_sentinel; right_child := to_sentinel |}], S (length a))) Q (moving L R a (x :: b))).
  apply move_to_node; [lia|]. apply wp_ret. exact HQ.
Qed.

Lemma splay_insert_wp : forall L R a x b nodes rt, xs = a ++ x :: b -> 0 < length a -> sbuilt (length a) nodes rt ->
  wp (splay_insert comp proj (length L + n + length R) (length L + length a) nodes rt)
    (fun '(nodes', rt') m => sbuilt (S (length a)) nodes' rt' /\ m = moving L R (a ++ [x]) b) (moving L R a (x :: b)).
Proof.
  intros L R a x b nodes rt EX Ha (t0 & HZ0 & Hne0 & -> & HLn & HP0 & HST). unfold splay_insert.
  assert (HL : n = length a + S (length b)). { rewrite EX, app_length. auto. }
  assert (Hval : val (length a) = x). { unfold Cartesian.val. rewrite EX, app_nth2, Nat.sub_diag by lia. auto. }
  assert (HF : firstn (length a) xs = a). { rewrite EX, firstn_app, Nat.sub_diag, firstn_all. simpl. apply app_nil_r. }
  assert (HF' : firstn (S (length a)) xs = a ++ [x]).
  { rewrite EX. replace (a ++ x :: b) with ((a ++ [x]) ++ b) by (rewrite <- app_assoc; auto). replace (S (length a)) with (length (a ++ [x])) by (rewrite app_length; simpl; lia).
    rewrite firstn_app, Nat.sub_diag, firstn_all, firstn_O. apply app_nil_r. }
  rewrite HF in HST.
  apply wp_bind. eapply wp_get.
  { unfold moving. rewrite nth_error_app2 by lia. rewrite nth_error_app2 by (rewrite repeat_length; lia).
    rewrite repeat_length. replace (length L + length a - length L - length a) with 0 by lia. reflexivity. }
  cbv zeta. apply wp_bind, wp_assert. { destruct t0; [congruence|reflexivity]. }
  assert (HI0 : forall i, In i (ids t0) -> i < length a). { intros i Hi. apply (Permutation_in _ HP0) in Hi. apply in_seq in Hi. lia. }
  assert (HLi : length (ids t0) = length a). { rewrite (Permutation_length HP0). apply seq_length. }
  apply wp_loop_k with (k := length (ids t0)) (I := fun k node m => m = moving L R a (x :: b) /\ exists c f, f <> Leaf /\ node = link f /\ k = length (ids f) /\ cplug c f = t0 /\
      Z nodes c f /\ (ord -> (forall j, In j (before c) -> lt x (val j) = false) /\ (forall j, In j (after c) -> lt x (val j) = true))).
  - split; auto. exists [], t0. cj; auto. simpl. intros _. split; intros ? [].
  - lia.
  - intros k node m (-> & c & f & Hf & -> & Hk & Ec & HZ & HO). destruct f as [|l i r]; [congruence|]. clear Hf. simpl link.
    apply wp_bind. eapply wp_rd; [eapply Z_parent; eauto|]. unfold value_of at 1.
    assert (Hi : In i (ids t0)). { rewrite <- Ec, ids_cplug. apply in_or_app. right. apply in_or_app. left. simpl. apply in_or_app. right. now left. }
    apply wp_bind. apply wp_ret. apply wp_bind. eapply wp_get.
    { rewrite HL. change (S (length b)) with (length (x :: b)). apply moving_nth. rewrite <- (nth_error_app1 a (x :: b)) by auto. rewrite <- EX. apply (val_nth xs d0). specialize (HI0 i Hi). lia. }
    change (comp (proj x) (proj (val i))) with (lt x (val i)).
    assert (HSt : ord -> (forall j, In j (ids l) -> le lt (val j) (val i)) /\ (forall j, In j (ids r) -> le lt (val i) (val j))).
    { intros Ho. destruct HST as [_ HS]. specialize (HS Ho). rewrite <- Ec, ids_cplug in HS. rewrite !map_app in HS. simpl in HS. rewrite map_app in HS. simpl in HS.
      apply sorted_app in HS; auto. destruct HS as (_ & HS & _). apply sorted_app in HS; auto. destruct HS as (HS & _ & _). apply sorted_app in HS; auto. destruct HS as (_ & HS & HS1).
      apply sorted_cons in HS; auto. destruct HS as [HS2 _]. split; intros j Hj; [apply HS1|apply HS2]; auto using in_map. now left. }
    (* the final step, on either side *)
    assert (HK : forall d t (m : mem A), Node l i r = tn d Leaf i t -> (ord -> match d with Lft => lt x (val i) = true | Rgt => lt x (val i) = false end) ->
      wp (let* nodes := set_child d (nodes ++ [{| parent := Some (S i); left_child := to_sentinel; right_child := to_sentinel |}]) (S i) (Some (S (length a))) in
          let* nodes' := splay nodes (S (length a)) in ret (inr (nodes', S (length a))))
       (fun (r : nat + (list tree_node * nat)) m' => match r with inl _ => False | inr (nodes', rt') => sbuilt (S (length a)) nodes' rt' /\ m' = m end) m).
    { intros d t m0 Et Hd. pose proof HZ as HZi. apply Z_parent in HZi. rewrite Et in HZ. pose proof HZ as (_ & _ & HFi & _). apply srep_tn in HFi as (Hni & _ & _).
      apply wp_bind. eapply wp_set_child. { rewrite nth_error_app1; [exact Hni|eapply nth_lt; eauto]. } rewrite with_child_nd.
      assert (Hfresh : ~ In (length a) (ids (cplug c (tn d Leaf i t)))). { rewrite <- Et, Ec. intros Hin. apply HI0 in Hin. lia. }
      pose proof (Z_extend nodes d c i t (length a) HZ HLn Hfresh _ eq_refl) as HZ'.
      apply wp_bind. eapply wp_mono; [eapply splay_wp; [|exact HZ']; discriminate|].
      intros nodes' m' (-> & HL' & a' & b' & HZ2 & HI2). apply wp_ret. split; auto. exists (Node a' (length a) b'). rewrite upd_length, app_length in HL'. simpl in HL'.
      rewrite ids_cplug in HI2. simpl ids at 2 in HI2. cbn [app] in HI2.
      assert (HB0 : ids t0 = before ((d, i, t) :: c) ++ after ((d, i, t) :: c)).
      { rewrite <- Ec, ids_cplug, Et. destruct d; simpl; rewrite <- ?app_assoc; simpl; reflexivity. }
      cj; auto; try discriminate; try lia.
      - rewrite HI2, seq_S, <- Permutation_middle, <- HB0, HP0. apply Permutation_cons_append.
      - rewrite HF', HI2, map_app, map_cons, Hval. destruct HST as [HST HS]. rewrite HB0, map_app in HST, HS.
        assert (HO2 : ord -> (forall j, In j (before ((d, i, t) :: c)) -> lt x (val j) = false) /\ (forall j, In j (after ((d, i, t) :: c)) -> lt x (val j) = true)).
        { intros Ho. destruct (HO Ho) as [HO1 HO2]. destruct (HSt Ho) as [HS1 HS2]. specialize (Hd Ho). pose proof (HORD Ho) as HW. destruct d; simpl in Et; injection Et as -> ->; simpl.
          - split; auto. intros j [<-|Hj]; auto. apply in_app_or in Hj as [Hj|Hj]; auto. apply (lt_le_trans lt HW) with (val i); auto.
          - split; auto. intros j Hj. apply in_app_or in Hj as [Hj|Hj]; auto. apply in_app_or in Hj as [Hj|[<-|[]]]; auto.
            apply (le_trans lt HW) with (val i); auto. }
        split.
        + apply st_trans with ((map val (before ((d, i, t) :: c)) ++ map val (after ((d, i, t) :: c))) ++ [x]). { apply st_app; auto using st_refl. }
          rewrite <- app_assoc. apply st_app; [apply st_refl|]. change (x :: map val (after ((d, i, t) :: c))) with ([x] ++ map val (after ((d, i, t) :: c))). apply st_swap; auto.
          intros Ho y z Hy [<-|[]]. apply in_map_iff in Hy as (j & <- & Hj). apply HO2; auto.
        + intros Ho. specialize (HS Ho). pose proof (HORD Ho) as HW. apply sorted_app in HS as (S1 & S2 & S3); auto. apply sorted_app; auto. cj; auto.
          * apply sorted_cons; auto. split; auto. intros y Hy. apply in_map_iff in Hy as (j & <- & Hj). apply lt_le; auto. apply HO2; auto.
          * intros y z Hy [<-|Hz]; auto. apply in_map_iff in Hy as (j & <- & Hj). apply HO2; auto. }
    destruct (lt x (val i)) eqn:Ex.
    + rewrite ptr_link. apply wp_bind, wp_deref. destruct (Nat.eqb_spec (link l) sentinel) as [El|El].
      * assert (l = Leaf) as -> by (destruct l; [auto|discriminate]). apply wp_bind. apply emplace_wp; auto. cbv beta iota. rewrite HLn.
        eapply wp_mono; [apply (HK Lft r); auto|]. intros [|[nodes' rt']] m' H; [destruct H|auto].
      * apply wp_ret. exists (length (ids l)). split. { subst k. simpl. rewrite app_length. simpl. lia. } split; auto.
        exists ((Lft, i, r) :: c), l. cj; auto. { intros ->. auto. } { apply Z_shift. auto. }
        intros Ho. destruct (HO Ho) as [HO1 HO2]. destruct (HSt Ho) as [HS1 HS2]. simpl. split; auto. intros j [<-|Hj]; auto. apply in_app_or in Hj as [Hj|Hj]; auto.
        apply (lt_le_trans lt (HORD Ho)) with (val i); auto.
    + simpl right_child. rewrite (ptr_link r). apply wp_bind, wp_deref. destruct (Nat.eqb_spec (link r) sentinel) as [El|El].
      * assert (r = Leaf) as -> by (destruct r; [auto|discriminate]). apply wp_bind. apply emplace_wp; auto. cbv beta iota. rewrite HLn.
        eapply wp_mono; [apply (HK Rgt l); auto|]. intros [|[nodes' rt']] m' H; [destruct H|auto].
      * apply wp_ret. exists (length (ids r)). split. { subst k. simpl. rewrite app_length. simpl. lia. } split; auto.
        exists ((Rgt, i, l) :: c), r. cj; auto. { intros ->. auto. } { apply Z_shift. auto. }
        intros Ho. destruct (HO Ho) as [HO1 HO2]. destruct (HSt Ho) as [HS1 HS2]. simpl. split; auto. intros j Hj. apply in_app_or in Hj as [Hj|Hj]; auto. apply in_app_or in Hj as [Hj|[<-|[]]]; auto.
        apply (le_trans lt (HORD Ho)) with (val i); auto.
Qed.

Lemma splay_tree_wp : forall L R, 0 < n ->
  wp (splay_tree comp proj (length L + n + length R) (length L) (length L + n))
    (fun '(nodes, rt) m => sbuilt n nodes rt /\ m = moving L R xs []) (moving L R [] xs).
Proof.
  intros L R Hn. unfold splay_tree. assert (exists x0 xs0, xs = x0 :: xs0) as (x0 & xs0 & EX). { destruct xs; [simpl in Hn; lia|eauto]. }
  apply wp_eq_mem with (m' := moving L R [] (x0 :: xs0)); [now rewrite EX|].
  replace (emplace_node (length L + n + length R) (length L)) with (@emplace_node A (length L + n + length R) (length L + @length A [])) by now rewrite Nat.add_0_r.
  apply wp_bind. apply emplace_wp; [rewrite EX; auto|reflexivity|]. cbn [app].
  apply wp_loop' with (I := fun '(first, nodes, rt) m => exists a b, xs = a ++ b /\ 0 < length a /\ first = length L + length a /\ sbuilt (length a) nodes rt /\ m = moving L R a b)
    (mu := fun '(first, nodes, rt) => length L + n - first).
  - exists [x0], xs0. cj; [auto|simpl; auto|simpl; lia| |reflexivity]. exists (Node Leaf 0 Leaf). cj; auto; try discriminate.
    + unfold Z. cj.
      * unfold sent. simpl. eexists _, _. reflexivity.
      * exact I.
      * simpl. auto.
      * simpl. constructor; auto. constructor.
    + unfold Cartesian.val. rewrite EX. simpl. split; [apply st_refl|]. intros _. apply sorted_one.
  - lia.
  - intros [[first nodes] rt] m (a & b & E & Ha & -> & HB & ->). assert (HL : n = length a + length b) by (rewrite E, app_length; auto).
    destruct (Nat.eqb_spec (length L + length a) (length L + n)).
    + apply wp_ret. destruct b; [|simpl in HL; lia]. rewrite app_nil_r in E. subst a. auto.
    + destruct b as [|x b]; [simpl in HL; lia|]. apply wp_bind. eapply wp_mono; [eapply splay_insert_wp with (x := x); eauto|].
      intros [nodes' rt'] m' [HB' ->]. apply wp_ret. cbv beta iota. split.
      * exists (a ++ [x]), b. rewrite app_length, Nat.add_1_r. cj; auto; try lia. rewrite E, <- app_assoc. auto.
      * simpl in HL. lia.
Qed.

(** ** The traversal *)
Definition stack := list (nat * tree).
Definition sup (stk : stack) : option nat := match stk with [] => Some 0 | (i, _) :: _ => Some (S i) end.
(** The nodes to visit and their right subtrees; the first one is the current node. *)
Fixpoint stk_rep (nodes : list tree_node) (stk : stack) : Prop :=
  match stk with
  | [] => True
  | (i, r) :: rest => (exists l, nth_error nodes (S i) = Some {| parent := sup rest; left_child := l; right_child := ptr r |}) /\
      srep nodes (Some (S i)) r /\ stk_rep nodes rest
  end.
Definition stids (stk : stack) : list nat := flat_map (fun e => fst e :: ids (snd e)) stk.

Lemma stk_rep_frame : forall nodes nodes' stk, (forall i, In i (stids stk) -> nth_error nodes' (S i) = nth_error nodes (S i)) -> stk_rep nodes stk -> stk_rep nodes' stk.
Proof.
  induction stk as [|[i r] stk IH]; intros H; simpl; auto. intros ((l & Hn) & Hr & Hs). unfold stids in H. simpl in H. cj.
  - exists l. rewrite H; auto.
  - eapply srep_frame; [|exact Hr]. intros j Hj. apply H. right. apply in_or_app. auto.
  - apply IH; auto. intros j Hj. apply H. right. apply in_or_app. auto.
Qed.

Lemma leftmost_wp : forall nodes t stk (m : mem A), t <> Leaf -> srep nodes (sup stk) t -> stk_rep nodes stk -> length (ids t) <= length nodes ->
  wp (leftmost nodes (link t)) (fun curr m' => m' = m /\ exists i r stk', curr = S i /\ stk_rep nodes ((i, r) :: stk') /\ stids ((i, r) :: stk') = ids t ++ stids stk) m.
Proof.
  intros nodes t stk m Hne HT HS HB. unfold leftmost.
  apply wp_loop_k with (k := length (ids t)) (I := fun k curr m' => m' = m /\ exists t' stk', t' <> Leaf /\ curr = link t' /\ k = length (ids t') /\
    srep nodes (sup stk') t' /\ stk_rep nodes stk' /\ ids t' ++ stids stk' = ids t ++ stids stk).
  - split; auto. exists t, stk. cj; auto.
  - lia.
  - intros k curr m' (-> & t' & stk' & Hne' & -> & Hk & HT' & HS' & HI). destruct t' as [|l i r]; [congruence|]. simpl in HT'. destruct HT' as (Hn & Hl & Hr).
    simpl link. apply wp_bind. eapply wp_rd; eauto. simpl left_child. rewrite (ptr_link l). apply wp_bind, wp_deref.
    assert (HS2 : stk_rep nodes ((i, r) :: stk')). { simpl. cj; auto. eexists. exact Hn. }
    destruct (Nat.eqb_spec (link l) sentinel) as [E|E]; simpl negb; apply wp_ret.
    + assert (l = Leaf) as -> by (destruct l; [auto|discriminate]). split; auto. exists i, r, stk'. cj; auto.
    + exists (length (ids l)). split. { subst k. simpl. rewrite app_length. simpl. lia. } split; auto. exists l, ((i, r) :: stk'). cj; auto.
      * intros ->. auto.
      * rewrite <- HI. unfold stids. simpl. rewrite <- app_assoc. reflexivity.
Qed.

Definition out_mem L R (os : list A) (buf : list (cell A)) : mem A := L ++ (map Val os ++ repeat Moved (n - length os)) ++ R ++ buf.

(** What remains in the buffer. *)
Definition holds (rest : list nat) (buf : list (cell A)) : Prop :=
  length buf = n /\ Forall live buf /\ forall i, In i rest -> nth_error buf i = Some (Val (val i)).

Lemma move_value_wp : forall L R os buf i rest (Q : unit -> mem A -> Prop), holds (i :: rest) buf -> NoDup (i :: rest) -> length os + length (i :: rest) = n ->
  (forall buf', holds rest buf' -> Q tt (out_mem L R (os ++ [val i]) buf')) ->
  wp (move_value (length L + n + length R) (S i) (length L + length os)) Q (out_mem L R os buf).
Proof.
  intros L R os buf i rest Q (HL & HV & HB) HN HE HQ. unfold move_value, value_of. apply wp_bind, wp_ret. simpl in HE.
  pose proof (HB i (or_introl eq_refl)) as Hi. pose proof (nth_lt _ _ _ Hi) as Li.
  apply nth_error_split in Hi as (b1 & b2 & Eb & Hb1).
  unfold out_mem. replace (n - length os) with (S (n - length (os ++ [val i]))) by (rewrite app_length; simpl; lia).
  rewrite Eb. simpl repeat. reshape ((L ++ map Val os) ++ Moved :: (repeat Moved (n - length (os ++ [val i])) ++ R ++ b1) ++ Val (val i) :: b2).
  apply wp_move_to_left; [lens|rewrite !app_length, map_length, repeat_length, ?app_length; simpl; lia|discriminate|].
  assert (HH : holds rest (b1 ++ Moved :: b2)).
  { subst buf. unfold holds. rewrite app_length in *. cj; auto.
    - apply Forall_app in HV as [HV1 HV2]. apply Forall_app. split; auto. inversion HV2; subst. constructor; auto. discriminate.
    - intros j Hj. rewrite <- (upd_mid Moved (Val (val i)) b1 b2), nth_upd_ne. { apply HB. now right. } intros E. inversion HN; subst. auto. }
  specialize (HQ _ HH). unfold out_mem in HQ. match type of HQ with Q tt ?m1 => match goal with |- Q tt ?m2 => replace m2 with m1; [exact HQ|] end end. rewrite map_app. simpl. solve_app.
Qed.

Lemma splay_move_to_wp : forall L R nodes rt buf, 0 < n -> sbuilt n nodes rt -> buf = map Val xs ->
  wp (splay_move_to (length L + n + length R) nodes rt (length L))
    (fun _ m => exists ys buf', stable_rel lt ord xs ys /\ length buf' = n /\ Forall live buf' /\ m = L ++ map Val ys ++ R ++ buf')
    (L ++ repeat Moved n ++ R ++ buf).
Proof.
  intros L R nodes rt buf Hn (t & HZ & Hne & -> & HLn & HP & HST) ->. unfold splay_move_to. rewrite firstn_all in HST.
  destruct HZ as (_ & _ & HT & ND). simpl up in HT. simpl cplug in ND.
  assert (HLi : length (ids t) = n). { rewrite (Permutation_length HP). apply seq_length. }
  apply wp_eq_mem with (m' := out_mem L R [] (map Val xs)). { unfold out_mem. simpl. rewrite Nat.sub_0_r. reflexivity. }
  assert (HH : holds (ids t) (map Val xs)).
  { unfold holds. rewrite map_length. cj; auto.
    - apply Forall_forall. intros c Hc. apply in_map_iff in Hc as (? & <- & ?). discriminate.
    - intros i Hi. apply (Permutation_in _ HP), in_seq in Hi. rewrite nth_error_map, (val_nth xs d0) by lia. reflexivity. }
  apply wp_bind. eapply wp_mono; [apply leftmost_wp with (stk := []); auto; [exact I|lia]|].
  intros curr m (-> & i & r & stk & -> & HS & HI). rewrite app_nil_r in HI.
  apply wp_bind. replace (length L) with (length L + @length A []) at 2 by (simpl; lia).
  assert (HI' : i :: (ids r ++ stids stk) = ids t) by (rewrite <- HI; reflexivity).
  eapply move_value_wp with (rest := ids r ++ stids stk).
  { rewrite HI'. auto. } { rewrite HI'. auto. } { rewrite HI'. simpl. auto. }
  intros buf0 HB0. cbn [app].
  apply wp_loop_k with (k := length (ids r ++ stids stk)) (I := fun k '(nodes', curr, out) m => exists i r stk done buf, curr = S i /\ out = length L + length (done ++ [i]) /\
     length nodes' = length nodes /\ stk_rep nodes' ((i, r) :: stk) /\ done ++ i :: ids r ++ stids stk = ids t /\ holds (ids r ++ stids stk) buf /\
     k = length (ids r ++ stids stk) /\ m = out_mem L R (map val (done ++ [i])) buf).
  - exists i, r, stk, [], buf0. cj; auto. simpl. lia.
  - rewrite HLn. rewrite <- HLi, <- HI'. simpl. lia.
  - clear i r stk HS HI HI' buf0 HB0. intros k [[nodes' curr] out] m (i & r & stk & done & buf & -> & -> & HL' & HS & HI & HB & Hk & ->).
    assert (HS' := HS). simpl in HS'. destruct HS' as ((l & Hi) & Hr & Hs).
    assert (ND' := ND). rewrite <- HI in ND'.
    assert (ND2 : NoDup (ids r ++ stids stk)).
    { assert (forall l1 l2 : list nat, NoDup (l1 ++ l2) -> NoDup l2) as HR. { clear. induction l1; simpl; auto. intros l2 H. inversion H; auto. }
      apply HR in ND'. inversion ND'; auto. }
    assert (Hin : ~ In i (ids r ++ stids stk)). { apply NoDup_remove_2 in ND'. rewrite in_app_iff in ND'. tauto. }
    assert (HE : length (done ++ [i]) + length (ids r ++ stids stk) = n). { rewrite <- HLi, <- HI, !app_length. simpl. rewrite app_length. lia. }
    apply wp_bind. eapply wp_rd; eauto. cbn [right_child parent]. rewrite (ptr_link r). apply wp_bind, wp_deref.
    assert (exists par, sup stk = Some par) as (par & Epar) by (destruct stk as [|[? ?] ?]; simpl; eauto). rewrite Epar. apply wp_bind, wp_deref.
    destruct (Nat.eqb_spec (link r) sentinel) as [E|E]; simpl negb; cbv iota.
    + assert (r = Leaf) as -> by (destruct r; [auto|discriminate]). simpl ids in *. cbn [app] in *.
      destruct stk as [|[i2 r2] stk]; simpl in Epar; injection Epar as <-; simpl Nat.eqb; simpl negb; cbv iota.
      * apply wp_ret. exists (map val (ids t)), buf. destruct HB as (HB1 & HB2 & _). cj; auto. rewrite <- HI. unfold out_mem. simpl stids.
        rewrite map_length. simpl in HE. replace (n - length (done ++ [i])) with 0 by lia. simpl repeat. rewrite app_nil_r. reflexivity.
      * apply wp_bind. rewrite <- (map_length val (done ++ [i])). eapply move_value_wp with (rest := ids r2 ++ stids stk); [exact HB|exact ND2|rewrite map_length; exact HE|].
        intros buf' HB'. apply wp_ret. exists (length (ids r2 ++ stids stk)). split. { rewrite Hk. unfold stids. simpl. lia. }
        exists i2, r2, stk, (done ++ [i]), buf'. cj; auto.
        -- rewrite map_length, !app_length. simpl. lia.
        -- rewrite <- HI. unfold stids. simpl. rewrite <- !app_assoc. reflexivity.
        -- rewrite (map_app _ (done ++ [i])). reflexivity.
    + destruct r as [|rl ri rr]; [destruct E; reflexivity|]. clear E. simpl link. simpl in Hr. destruct Hr as (Hri & Hrl & Hrr).
      assert (Hne2 : ri <> i). { intros ->. apply Hin. apply in_or_app. left. simpl. apply in_or_app. right. now left. }
      assert (NDr : ~ In ri (ids rl ++ ids rr ++ stids stk)).
      { simpl in ND2. rewrite <- app_assoc in ND2. apply NoDup_remove_2 in ND2. auto. }
      apply wp_bind. eapply wp_set_parent; eauto. apply wp_bind. eapply wp_set_child with (d := Rgt). { rewrite nth_upd_ne by lia. exact Hi. }
      match goal with |- context [leftmost ?l] => set (n2 := l) end.
      assert (F2 : forall j, j <> ri -> j <> i -> nth_error n2 (S j) = nth_error nodes' (S j)). { intros j H1 H2. unfold n2. rewrite !nth_upd_ne by lia. auto. }
      assert (F2r : nth_error n2 (S ri) = Some {| parent := Some par; left_child := ptr rl; right_child := ptr rr |}).
      { unfold n2. rewrite nth_upd_ne by lia. apply nth_upd_eq. eapply nth_lt; eauto. }
      assert (L2 : length n2 = length nodes') by (unfold n2; rewrite !upd_length; auto). clearbody n2.
      apply wp_bind. eapply wp_mono; [apply leftmost_wp with (t := Node rl ri rr) (stk := stk)|].
      * discriminate.
      * simpl. rewrite Epar. cj; auto.
        -- eapply srep_frame; [|exact Hrl]. intros j Hj. apply F2; intros ->; [apply NDr; apply in_or_app; auto|apply Hin; simpl; rewrite !in_app_iff; auto].
        -- eapply srep_frame; [|exact Hrr]. intros j Hj. apply F2; intros ->; [apply NDr; rewrite !in_app_iff; auto|apply Hin; simpl; rewrite !in_app_iff; simpl; auto].
      * eapply stk_rep_frame; [|exact Hs]. intros j Hj. apply F2; intros ->; [apply NDr; rewrite !in_app_iff; auto|apply Hin; simpl; rewrite !in_app_iff; simpl; auto].
      * rewrite L2, HL', HLn. rewrite !app_length in HE. lia.
      * intros curr m (-> & i2 & r2 & stk2 & -> & HS2 & HI2). apply wp_bind. rewrite <- (map_length val (done ++ [i])).
        assert (HI3 : i2 :: (ids r2 ++ stids stk2) = ids (Node rl ri rr) ++ stids stk) by (rewrite <- HI2; reflexivity).
        rewrite <- HI3 in *.
        eapply move_value_wp with (rest := ids r2 ++ stids stk2); [exact HB|exact ND2|rewrite map_length; exact HE|].
        intros buf' HB'. apply wp_ret. exists (length (ids r2 ++ stids stk2)). split. { rewrite Hk. simpl. lia. }
        exists i2, r2, stk2, (done ++ [i]), buf'. cj; auto.
        -- rewrite map_length, !app_length. simpl. lia.
        -- congruence.
        -- rewrite <- HI. rewrite <- !app_assoc. reflexivity.
        -- rewrite (map_app _ (done ++ [i])). reflexivity.
Qed.
End Sort.

Section Statements.
Context {A T : Type} (comp : T -> T -> bool) (proj : A -> T).
Notation lt := (by_proj comp proj).

Lemma splay_runs : forall ord : Prop, (ord -> strict_weak_order lt) -> runs (stable_rel lt ord) (splay_sorter comp proj).
Proof.
  intros ord HORD pre xs post. unfold splay_sorter, splaysort. replace (length pre + length xs - length pre) with (length xs) by lia.
  destruct (Nat.ltb_spec (length xs) 2).
  { exists xs. split; [reflexivity|]. split; [apply st_refl|]. intros _. destruct xs as [|x [|y xs]]; [apply sorted_nil|apply sorted_one|simpl in H; lia]. }
  match goal with |- exists ys, ?c ?m = _ /\ _ => assert (wp c (fun _ m' => exists ys, m' = pre ++ map Val ys ++ post /\ stable_rel lt ord xs ys) m) as HG end.
  2:{ apply wp_ok in HG as ([] & m' & E & ys & -> & HR). eauto. }
  destruct xs as [|d xs0] eqn:EX; [simpl in H; lia|]. rewrite <- EX in *. clear EX xs0.
  apply wp_bind. apply wp_alloc. replace (length (pre ++ map Val xs ++ post)) with (length pre + length xs + length post) by lens.
  reshape (moving pre post [] xs). apply wp_bind. eapply wp_mono; [apply (splay_tree_wp comp proj ord HORD xs d); lia|].
  intros [nodes rt] m (HB & ->). unfold moving. simpl repeat. simpl map. rewrite app_nil_r. cbn [app].
  assert (HN : length nodes = S (length xs)) by (destruct HB as (? & ? & ? & ? & ? & ?); auto).
  apply wp_bind. eapply wp_mono; [eapply (splay_move_to_wp comp proj ord xs d); eauto; lia|].
  intros _ m (ys & buf' & HR & HL & HF & ->). apply wp_bind. reshape ((pre ++ map Val ys ++ post) ++ buf' ++ []).
  assert (HLy : length xs = length ys) by (eapply st_length; apply HR).
  apply destroy_n_seg; auto; [lens|lia|]. rewrite app_nil_r. rewrite HL. apply wp_dealloc; [lens|]. exists ys. split; auto.
Qed.

Lemma splay_sorts_stably : strict_weak_order comp -> sorts_stably lt (splay_sorter comp proj).
Proof. intros HC. apply stable_runs. apply splay_runs. intros _. now apply swo_by_proj. Qed.
Lemma splay_permutes : permutes (splay_sorter comp proj).
Proof. apply permutes_runs_st with (comp := comp) (proj := proj). apply splay_runs. tauto. Qed.
End Statements.
