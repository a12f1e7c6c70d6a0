(** The merges of timsort. *)
From Coq Require Import List Arith Lia Permutation Bool ZArith.
From Verif Require Import Spec.Order Lang.Mem Spec.Sorts Proofs.Wp Proofs.OrderLib Model.Basic Proofs.Basic Model.Rotate Proofs.Rotate
  Model.Search Proofs.Search Proofs.Indirect Model.Buffer Model.Select Proofs.IndexLib Proofs.Stable Proofs.MergeSort Model.Tim Proofs.Tim.
Import ListNotations.

Section Lists.
Context {A : Type} (lt : A -> A -> bool) (ord : Prop).
Hypothesis HORD : ord -> strict_weak_order lt.
Notation st := (st lt ord).
Notation le := (OrderLib.le lt).

(** [out] has been output; [b1] and [r2] remain. *)
Definition fwd (l out b1 r2 : list A) : Prop :=
  st l (out ++ b1 ++ r2) /\ (ord -> sorted lt (out ++ b1) /\ sorted lt (out ++ r2)).

Lemma fwd_left : forall l out u v r2, fwd l out (u ++ v) r2 -> (ord -> forall x y, In x u -> In y r2 -> le x y) -> fwd l (out ++ u) v r2.
Proof.
  intros l out u v r2 [HP HS] Hu. split. { rewrite <- !app_assoc in *. auto. }
  intros Ho. destruct (HS Ho) as [H1 H2]. rewrite app_assoc in H1. split; auto.
  apply sorted_app in H1 as (H3 & _ & _). apply sorted_app in H2 as (H4 & H5 & H6). apply sorted_app. cj; auto.
  intros x y Hx Hy. apply in_app_or in Hx as [Hx|Hx]; auto.
Qed.
Lemma fwd_right : forall l out b1 u v, fwd l out b1 (u ++ v) -> (ord -> forall x y, In x b1 -> In y u -> lt y x = true) -> fwd l (out ++ u) b1 v.
Proof.
  intros l out b1 u v [HP HS] Hu. split.
  - eapply st_trans; [exact HP|]. rewrite <- app_assoc. apply st_swap_mid; auto.
  - intros Ho. destruct (HS Ho) as [H1 H2]. rewrite app_assoc in H2. split; auto.
    apply sorted_app in H2 as (H3 & _ & _). apply sorted_app in H1 as (H4 & H5 & H6). apply sorted_app. cj; auto.
    intros x y Hx Hy. apply in_app_or in Hx as [Hx|Hx]; auto. apply (lt_asym lt (HORD Ho)). now apply Hu.
Qed.

(** [out] has been output, at the end; [b1] and [r2] remain. *)
Definition bwd (l out b1 r2 : list A) : Prop :=
  st l (b1 ++ r2 ++ out) /\ (ord -> sorted lt (b1 ++ out) /\ sorted lt (r2 ++ out)).

Lemma bwd_left : forall l out u v r2, bwd l out (u ++ v) r2 -> (ord -> forall x y, In x v -> In y r2 -> lt y x = true) -> bwd l (v ++ out) u r2.
Proof.
  intros l out u v r2 [HP HS] Hu. split.
  - eapply st_trans; [exact HP|]. rewrite <- !app_assoc. apply st_swap_mid; auto.
  - intros Ho. destruct (HS Ho) as [H1 H2]. rewrite <- app_assoc in H1. split; auto.
    apply sorted_app in H1 as (_ & H3 & _). apply sorted_app in H2 as (H4 & H5 & H6). apply sorted_app. cj; auto.
    intros x y Hx Hy. apply in_app_or in Hy as [Hy|Hy]; auto. apply (lt_asym lt (HORD Ho)). now apply Hu.
Qed.
Lemma bwd_right : forall l out b1 u v, bwd l out b1 (u ++ v) -> (ord -> forall x y, In x b1 -> In y v -> le x y) -> bwd l (v ++ out) b1 u.
Proof.
  intros l out b1 u v [HP HS] Hu. split. { rewrite <- !app_assoc in *. auto. }
  intros Ho. destruct (HS Ho) as [H1 H2]. rewrite <- app_assoc in H2. split; auto.
  apply sorted_app in H2 as (_ & H3 & _). apply sorted_app in H1 as (H4 & H5 & H6). apply sorted_app. cj; auto.
  intros x y Hx Hy. apply in_app_or in Hy as [Hy|Hy]; auto.
Qed.
End Lists.

Section Merge.
Context {A T : Type} (comp : T -> T -> bool) (proj : A -> T).
Notation lt := (by_proj comp proj).
Variable ord : Prop.
Hypothesis HORD : ord -> strict_weak_order lt.
Variable strict : bool.
Hypothesis HSTR : strict = true -> ord.
Notation st := (st lt ord).
Notation le := (OrderLib.le lt).
Notation live := (fun c : cell A => c <> Raw).

Lemma contract_wp : forall b (Q : unit -> mem A -> Prop) m, (ord -> b = true) -> Q tt m -> wp (contract (A := A) strict b) Q m.
Proof. intros b Q m Hb HQ. unfold contract. destruct strict; [apply tim_assert; auto|now apply wp_ret]. Qed.

Definition left_over (s : cursors) : nat := let '(c1, n1, c2, n2, d) := s in n1 + n2.

Lemma merge_outer_wp : forall (inv : cursors -> mem A -> Prop) (going fin : cursors -> Prop) count gallops,
  (forall mg s m (Q : bool * cursors -> mem A -> Prop), inv s m -> going s ->
    (forall brk s' m', inv s' m' -> left_over s' < left_over s -> (if brk : bool then fin s' else going s') -> Q (brk, s') m') -> wp (count mg s) Q m) ->
  (forall mg s m (Q : bool * Z * cursors -> mem A -> Prop), inv s m -> going s ->
    (forall brk mg' s' m', inv s' m' -> left_over s' < left_over s -> (if brk : bool then fin s' else going s') -> Q (brk, mg', s') m') -> wp (gallops mg s) Q m) ->
  forall fuel mg s m (Q : Z * cursors -> mem A -> Prop), left_over s < fuel -> inv s m -> going s ->
  (forall mg' s' m', inv s' m' -> fin s' -> Q (mg', s') m') -> wp (merge_outer count gallops fuel mg s) Q m.
Proof.
  intros inv going fin count gallops Hc Hg fuel mg s m Q Hf HI HG HQ. unfold merge_outer.
  apply wp_loop' with (I := fun '(_, s) m => inv s m /\ going s) (mu := fun '(_, s) => left_over s); auto.
  intros [mg' s'] m' [HI' HG']. apply wp_bind. eapply Hc; eauto. intros brk s1 m1 HI1 HL1 H1. destruct brk. { apply wp_ret. apply HQ; auto. }
  apply wp_bind. eapply Hg; eauto. intros brk mg2 s2 m2 HI2 HL2 H2. destruct brk. { apply wp_ret. apply HQ; auto. }
  apply wp_ret. cj; auto. lia.
Qed.

Section Lo.
Variables pre post R : mem A.

Lemma lo_block_right : forall u v out gap b1 D c2 d k (Q : nat -> mem A -> Prop), gap <> [] -> Forall live gap ->
  d = length pre + length out -> c2 = d + length gap -> k = c2 + length u ->
  (forall gap' n, Forall live gap' -> length gap' = length gap -> Q n (pre ++ map Val (out ++ u) ++ gap' ++ map Val v ++ post ++ D ++ map Val b1 ++ R)) ->
  wp (move_range c2 k d) Q (pre ++ map Val out ++ gap ++ map Val (u ++ v) ++ post ++ D ++ map Val b1 ++ R).
Proof.
  intros u v out gap b1 D c2 d k Q Hne HL -> -> -> HQ.
  reshape ((pre ++ map Val out) ++ gap ++ map Val u ++ map Val v ++ post ++ D ++ map Val b1 ++ R).
  apply move_range_left_wp; auto; try (lens; fail). intros G' HG HG'.
  replace ((pre ++ map Val out) ++ map Val u ++ G' ++ map Val v ++ post ++ D ++ map Val b1 ++ R)
    with (pre ++ map Val (out ++ u) ++ G' ++ map Val v ++ post ++ D ++ map Val b1 ++ R) by solve_app. auto.
Qed.
Lemma lo_right : forall y v out gap b1 D c2 d (Q : unit -> mem A -> Prop), gap <> [] -> Forall live gap ->
  d = length pre + length out -> c2 = d + length gap ->
  (forall gap', Forall live gap' -> length gap' = length gap -> Q tt (pre ++ map Val (out ++ [y]) ++ gap' ++ map Val v ++ post ++ D ++ map Val b1 ++ R)) ->
  wp (move_to c2 d) Q (pre ++ map Val out ++ gap ++ map Val (y :: v) ++ post ++ D ++ map Val b1 ++ R).
Proof.
  intros y v out gap b1 D c2 d Q Hne HL -> -> HQ. destruct gap as [|c gap]; [congruence|]. inversion HL; subst.
  reshape ((pre ++ map Val out) ++ c :: gap ++ Val y :: map Val v ++ post ++ D ++ map Val b1 ++ R).
  apply wp_move_to_left; [lens|lens|auto|].
  replace ((pre ++ map Val out) ++ Val y :: gap ++ Moved :: map Val v ++ post ++ D ++ map Val b1 ++ R)
    with (pre ++ map Val (out ++ [y]) ++ (gap ++ [Moved]) ++ map Val v ++ post ++ D ++ map Val b1 ++ R) by solve_app.
  apply HQ; [|lens]. apply Forall_app. split; auto. constructor; auto. discriminate.
Qed.
Lemma lo_block_left : forall u v out gap r2 D c1 d k (Q : nat -> mem A -> Prop), length gap = length (u ++ v) -> Forall live gap -> Forall live D ->
  d = length pre + length out + length u -> c1 = length pre + length out + length gap + length r2 + length post + length D -> k = c1 + length u ->
  (forall gap' D' n, Forall live gap' -> length gap' = length v -> Forall live D' -> length D' = length D + length u ->
     Q n (pre ++ map Val (out ++ u) ++ gap' ++ map Val r2 ++ post ++ D' ++ map Val v ++ R)) ->
  wp (move_backward c1 k d) Q (pre ++ map Val out ++ gap ++ map Val r2 ++ post ++ D ++ map Val (u ++ v) ++ R).
Proof.
  intros u v out gap r2 D c1 d k Q HLn HL HD -> -> -> HQ. rewrite app_length in HLn.
  assert (exists g1 g2, gap = g1 ++ g2 /\ length g1 = length u /\ length g2 = length v) as (g1 & g2 & -> & Hg1 & Hg2).
  { exists (firstn (length u) gap), (skipn (length u) gap). cj; [now rewrite firstn_skipn|rewrite firstn_length; lia|rewrite skipn_length; lia]. }
  apply Forall_app in HL as [HL1 HL2].
  reshape ((pre ++ map Val out) ++ g1 ++ (g2 ++ map Val r2 ++ post ++ D) ++ map Val u ++ map Val v ++ R).
  apply move_backward_far; auto; try (lens; fail). intros D2 HD2 HLD.
  replace ((pre ++ map Val out) ++ map Val u ++ (g2 ++ map Val r2 ++ post ++ D) ++ D2 ++ map Val v ++ R)
    with (pre ++ map Val (out ++ u) ++ g2 ++ map Val r2 ++ post ++ (D ++ D2) ++ map Val v ++ R) by solve_app.
  apply HQ; auto; [|lens]. apply Forall_app. auto.
Qed.
Lemma lo_left : forall x v out gap r2 D c1 d (Q : unit -> mem A -> Prop), length gap = S (length v) -> Forall live gap -> Forall live D ->
  d = length pre + length out -> c1 = length pre + length out + length gap + length r2 + length post + length D ->
  (forall gap' D', Forall live gap' -> length gap' = length v -> Forall live D' -> length D' = S (length D) ->
     Q tt (pre ++ map Val (out ++ [x]) ++ gap' ++ map Val r2 ++ post ++ D' ++ map Val v ++ R)) ->
  wp (move_to c1 d) Q (pre ++ map Val out ++ gap ++ map Val r2 ++ post ++ D ++ map Val (x :: v) ++ R).
Proof.
  intros x v out gap r2 D c1 d Q HLn HL HD -> -> HQ. destruct gap as [|c gap]; [discriminate|]. inversion HL; subst.
  reshape ((pre ++ map Val out) ++ c :: (gap ++ map Val r2 ++ post ++ D) ++ Val x :: map Val v ++ R).
  apply wp_move_to_left; [lens|lens|auto|].
  replace ((pre ++ map Val out) ++ Val x :: (gap ++ map Val r2 ++ post ++ D) ++ Moved :: map Val v ++ R)
    with (pre ++ map Val (out ++ [x]) ++ gap ++ map Val r2 ++ post ++ (D ++ [Moved]) ++ map Val v ++ R) by solve_app.
  apply HQ; auto; [|lens]. apply Forall_app. split; auto. constructor; auto. discriminate.
Qed.

Variables (l1 l2 l1' : list A) (x0 : A).
Hypothesis E1 : l1 = l1' ++ [x0].
Hypothesis Hlast : ord -> forall y, In y l2 -> lt y x0 = true.

Definition lo_inv (s : cursors) (m : mem A) : Prop := let '(c1, n1, c2, n2, d) := s in
  exists out gap b1 r2 D, m = pre ++ map Val out ++ gap ++ map Val r2 ++ post ++ D ++ map Val b1 ++ R /\
    Forall live gap /\ length gap = length b1 /\ Forall live D /\ length D + length b1 = length l1 /\
    (exists a, l1 = a ++ b1) /\ (exists c, l2 = c ++ r2) /\
    fwd lt ord (l1 ++ l2) out b1 r2 /\
    c1 = length pre + length out + length gap + length r2 + length post + length D /\ n1 = length b1 /\
    c2 = length pre + length out + length gap /\ n2 = length r2 /\ d = length pre + length out.

Definition lo_going (s : cursors) : Prop := let '(c1, n1, c2, n2, d) := s in 1 < n1 /\ 0 < n2.
Definition lo_done (s : cursors) : Prop := let '(c1, n1, c2, n2, d) := s in
  (n1 = 1 /\ 0 < n2) \/ (1 < n1 /\ n2 = 0) \/ (n1 = 0 /\ ~ ord).

Lemma lo_count_wp : forall mg s m (Q : bool * cursors -> mem A -> Prop), lo_inv s m -> lo_going s ->
  (forall brk s' m', lo_inv s' m' -> left_over s' < left_over s -> (if brk : bool then lo_done s' else lo_going s') -> Q (brk, s') m') ->
  wp (lo_count comp proj mg s) Q m.
Proof.
  intros mg [[[[c1 n1] c2] n2] d] m Q HI HG HQ. unfold lo_count.
  apply wp_loop' with (I := fun '(k1, k2, s') m' => lo_inv s' m' /\ lo_going s' /\ left_over s' <= n1 + n2)
    (mu := fun '(k1, k2, s') => left_over s').
  - cj; auto.
  - simpl. lia.
  - intros [[k1 k2] [[[[c1' n1'] c2'] n2'] d']] m' (HI' & [HG1 HG2] & HLO).
    destruct HI' as (out & gap & b1 & r2 & D & -> & HL & HLn & HD & HDn & (a & Ea) & (c & Ec) & HF & -> & -> & -> & -> & ->).
    asrt. asrt. destruct b1 as [|x b1]; [simpl in HG1; lia|]. destruct r2 as [|y r2]; [simpl in HG2; lia|].
    assert (gap <> []) as Hne by (intros ->; discriminate).
    apply wp_bind. eapply wp_less_at with (x := y) (y := x).
    { replace (pre ++ map Val out ++ gap ++ map Val (y :: r2) ++ post ++ D ++ map Val (x :: b1) ++ R)
        with ((pre ++ map Val out ++ gap) ++ Val y :: map Val r2 ++ post ++ D ++ map Val (x :: b1) ++ R) by solve_app. apply nth_at. lens. }
    { replace (pre ++ map Val out ++ gap ++ map Val (y :: r2) ++ post ++ D ++ map Val (x :: b1) ++ R)
        with ((pre ++ map Val out ++ gap ++ map Val (y :: r2) ++ post ++ D) ++ Val x :: map Val b1 ++ R) by solve_app. apply nth_at. lens. }
    assert (ord -> sorted lt (x :: b1) /\ sorted lt (y :: r2)) as HSS.
    { intros Ho. destruct HF as [_ HF]. destruct (HF Ho) as [F1 F2]. apply sorted_app in F1, F2. tauto. }
    destruct (lt y x) eqn:Eyx.
    + apply wp_bind. apply lo_right; auto. intros gap' HL' HLn'.
      assert (lo_inv (length pre + length out + length gap + length (y :: r2) + length post + length D, length (x :: b1),
                S (length pre + length out + length gap), length (y :: r2) - 1, S (length pre + length out))
        (pre ++ map Val (out ++ [y]) ++ gap' ++ map Val r2 ++ post ++ D ++ map Val (x :: b1) ++ R)) as HI'.
      { exists (out ++ [y]), gap', (x :: b1), r2, D. cj; auto; try (lens; fail); eauto.
        - exists (c ++ [y]). now rewrite <- app_assoc.
        - apply fwd_right with (u := [y]); auto. intros Ho u v Hu [<-|[]]. destruct (HSS Ho) as [S1 S2]. destruct Hu as [<-|Hu]; auto.
          apply sorted_cons in S1 as [S1 _]. apply (lt_le_trans lt (HORD Ho)) with x; auto. }
      destruct (Nat.eqb_spec (length (y :: r2) - 1) 0) as [E0|E0].
      * apply wp_ret. apply HQ; auto; simpl in *; lia.
      * destruct (_ <? mg)%Z; apply wp_ret; [|apply HQ; auto; simpl in *; lia]. split; [|simpl in *; lia]. cj; auto; simpl in *; lia.
    + apply wp_bind. apply lo_left; auto; try (lens; fail). intros gap' D' HL' HLn' HD' HDn'.
      assert (lo_inv (S (length pre + length out + length gap + length (y :: r2) + length post + length D), length (x :: b1) - 1,
                length pre + length out + length gap, length (y :: r2), S (length pre + length out))
        (pre ++ map Val (out ++ [x]) ++ gap' ++ map Val (y :: r2) ++ post ++ D' ++ map Val b1 ++ R)) as HI'.
      { exists (out ++ [x]), gap', b1, (y :: r2), D'. cj; auto; try (simpl in *; lens; fail); eauto.
        - exists (a ++ [x]). now rewrite <- app_assoc.
        - apply fwd_left with (u := [x]); auto. intros Ho u v [<-|[]] Hv. destruct (HSS Ho) as [S1 S2]. destruct Hv as [<-|Hv]; auto.
          apply sorted_cons in S2 as [S2 _]. apply (le_trans lt (HORD Ho)) with y; auto. }
      destruct (Nat.eqb_spec (length (x :: b1) - 1) 1) as [E0|E0].
      * apply wp_ret. apply HQ; auto; simpl in *; lia.
      * destruct (_ <? mg)%Z; apply wp_ret; [|apply HQ; auto; simpl in *; lia]. split; [|simpl in *; lia]. cj; auto; simpl in *; lia.
Qed.

Lemma lo_gallop_wp : forall mg s m (Q : bool * Z * cursors -> mem A -> Prop), lo_inv s m -> lo_going s ->
  (forall brk mg' s' m', lo_inv s' m' -> left_over s' < left_over s -> (if brk : bool then lo_done s' else lo_going s') -> Q (brk, mg', s') m') ->
  wp (lo_gallop comp proj mg s) Q m.
Proof.
  intros mg [[[[c1 n1] c2] n2] d] m Q HI HG HQ. unfold lo_gallop.
  apply wp_loop' with (I := fun '(mg', s') m' => lo_inv s' m' /\ lo_going s' /\ left_over s' <= n1 + n2)
    (mu := fun '(mg', s') => left_over s').
  - cj; auto.
  - simpl. lia.
  - intros [mg' [[[[c1' n1'] c2'] n2'] d']] m' (HI' & [HG1 HG2] & HLO).
    destruct HI' as (out & gap & b1 & r2 & D & -> & HL & HLn & HD & HDn & (a & Ea) & (c & Ec) & HF & -> & -> & -> & -> & ->).
    asrt. asrt. destruct r2 as [|y r2]; [simpl in HG2; lia|].
    apply wp_bind. reshape ((pre ++ map Val out ++ gap) ++ Val y :: map Val r2 ++ post ++ D ++ map Val b1 ++ R). apply wp_get_at. { lens. }
    apply wp_bind. reshape ((pre ++ map Val out ++ gap ++ map Val (y :: r2) ++ post ++ D) ++ map Val b1 ++ R).
    assert (ord -> sorted lt b1 /\ sorted lt (y :: r2)) as HSS.
    { intros Ho. destruct HF as [_ HF]. destruct (HF Ho) as [F1 F2]. apply sorted_app in F1, F2. tauto. }
    apply (gallop_right_wp comp proj ord HORD); try (lens; fail). intros u v -> Huv. rewrite app_length in *.
    assert (ord -> v <> []) as Hv.
    { intros Ho ->. rewrite app_nil_r in *. destruct (HSS Ho) as [S1 _]. destruct (Huv Ho S1) as [U _].
      assert (In x0 u) as Hin. { destruct u as [|z u] using rev_ind; [simpl in HG1; lia|]. rewrite app_assoc, E1 in Ea. apply app_inj_tail in Ea as [_ ->]. apply in_app_iff; simpl; auto. }
      specialize (U _ Hin). red in U. rewrite Hlast in U; auto; [discriminate|]. rewrite Ec. apply in_app_iff; simpl; auto. }
    apply wp_bind.
    apply wp_mono with (Q := fun _ m => exists gap' D', Forall live gap' /\ length gap' = length v /\ Forall live D' /\ length D' = length D + length u /\
       m = pre ++ map Val (out ++ u) ++ gap' ++ map Val (y :: r2) ++ post ++ D' ++ map Val v ++ R).
    { destruct (Nat.eqb_spec (length u) 0) as [Eu|Eu]; cbn [negb].
      - destruct u; [|discriminate]. apply wp_ret. exists gap, D. cj; auto; try (simpl; lia). solve_app.
      - apply wp_bind. reshape (pre ++ map Val out ++ gap ++ map Val (y :: r2) ++ post ++ D ++ map Val (u ++ v) ++ R).
        apply lo_block_left; auto; try (lens; fail). intros gap' D' n H1 H2 H3 H4. apply wp_ret. exists gap', D'. auto. }
    intros _ m1 (gap1 & D1 & HL1 & HLn1 & HD1 & HDn1 & ->).
    assert (fwd lt ord (l1 ++ l2) (out ++ u) v (y :: r2)) as HF1.
    { apply fwd_left; auto. intros Ho z w Hz Hw. destruct (HSS Ho) as [S1 S2]. destruct (Huv Ho S1) as [U _]. specialize (U z Hz).
      destruct Hw as [<-|Hw]; auto. apply sorted_cons in S2 as [S2 _]. apply (le_trans lt (HORD Ho)) with y; auto. }
    clear HL HF. rename HDn into HDn0. rename HLn into HLn0.
    destruct (negb (length u =? 0) && (length u + length v - length u <=? 1)) eqn:Eb.
    { apply wp_ret. apply andb_true_iff in Eb as [Eb1 Eb2]. apply negb_true_iff, Nat.eqb_neq in Eb1. apply Nat.leb_le in Eb2. apply HQ.
      - exists (out ++ u), gap1, v, (y :: r2), D1. cj; auto; try (lens; fail). { exists (a ++ u). now rewrite <- app_assoc. } eauto.
      - simpl in *. lia.
      - simpl. destruct v as [|z v]; [right; right; split; [simpl; lia|intros Ho; now apply Hv]|left; simpl in *; lia]. }
    assert (1 < length v) as Hv1.
    { apply andb_false_iff in Eb as [Eb|Eb]; [apply negb_false_iff, Nat.eqb_eq in Eb; lia|apply Nat.leb_gt in Eb; lia]. }
    clear Eb. destruct v as [|x v]; [simpl in Hv1; lia|]. assert (gap1 <> []) as Hne by (intros ->; discriminate).
    apply wp_bind. apply lo_right; auto; try (lens; fail). intros gap2 HL2 HLn2.
    assert (fwd lt ord (l1 ++ l2) ((out ++ u) ++ [y]) (x :: v) r2) as HF2.
    { apply fwd_right; auto. intros Ho z w Hz [<-|[]]. destruct (HSS Ho) as [S1 S2]. destruct (Huv Ho S1) as [_ U]. auto. }
    destruct (Nat.eqb_spec (length (y :: r2) - 1) 0) as [E0|E0].
    { apply wp_ret. apply HQ.
      - exists ((out ++ u) ++ [y]), gap2, (x :: v), r2, D1. cj; auto; try (simpl in *; lens; fail). { exists (a ++ u). now rewrite <- app_assoc. }
        exists (c ++ [y]). now rewrite <- app_assoc.
      - simpl in *. lia.
      - simpl in *. lia. }
    apply wp_bind. reshape ((pre ++ map Val ((out ++ u) ++ [y]) ++ gap2 ++ map Val r2 ++ post ++ D1) ++ Val x :: map Val v ++ R). apply wp_get_at. { lens. }
    apply wp_bind. reshape ((pre ++ map Val ((out ++ u) ++ [y]) ++ gap2) ++ map Val r2 ++ post ++ D1 ++ map Val (x :: v) ++ R).
    apply (gallop_left_wp comp proj ord HORD); try (simpl in *; lens; fail). intros u2 v2 -> Huv2.
    apply wp_bind.
    apply wp_mono with (Q := fun _ m => exists gap', Forall live gap' /\ length gap' = length gap2 /\
       m = pre ++ map Val (((out ++ u) ++ [y]) ++ u2) ++ gap' ++ map Val v2 ++ post ++ D1 ++ map Val (x :: v) ++ R).
    { destruct (Nat.eqb_spec (length u2) 0) as [Eu|Eu]; cbn [negb].
      - destruct u2; [|discriminate]. apply wp_ret. exists gap2. cj; auto. solve_app.
      - apply wp_bind. reshape (pre ++ map Val ((out ++ u) ++ [y]) ++ gap2 ++ map Val (u2 ++ v2) ++ post ++ D1 ++ map Val (x :: v) ++ R).
        apply lo_block_right; auto; try (lens; fail). { intros ->. simpl in *. lia. } intros gap' n H1 H2. apply wp_ret. exists gap'. auto. }
    intros _ m3 (gap3 & HL3 & HLn3 & ->).
    assert (fwd lt ord (l1 ++ l2) (((out ++ u) ++ [y]) ++ u2) (x :: v) v2) as HF3.
    { apply fwd_right; auto. intros Ho z w Hz Hw. destruct HF2 as [_ HF2]. destruct (HF2 Ho) as [F1 F2]. apply sorted_app in F1 as (_ & F1 & _), F2 as (_ & F2 & _).
      destruct (Huv2 Ho F2) as [U _]. specialize (U w Hw). destruct Hz as [<-|Hz]; auto. apply sorted_cons in F1 as [F1 _]. apply (lt_le_trans lt (HORD Ho)) with x; auto. }
    assert (exists c', l2 = c' ++ v2) as Hc2. { exists (c ++ y :: u2). rewrite Ec. now rewrite <- app_assoc. }
    simpl length in *. rewrite app_length in *.
    destruct (negb (length u2 =? 0) && (S (length u2 + length v2) - 1 - length u2 =? 0)) eqn:Eb.
    { apply wp_ret. apply andb_true_iff in Eb as [Eb1 Eb2]. apply negb_true_iff, Nat.eqb_neq in Eb1. apply Nat.eqb_eq in Eb2. apply HQ.
      - exists (((out ++ u) ++ [y]) ++ u2), gap3, (x :: v), v2, D1. cj; auto; try (simpl in *; lens; fail). exists (a ++ u). now rewrite <- app_assoc.
      - simpl in *. lia.
      - simpl in *. right. left. lia. }
    assert (0 < length v2) as Hv2.
    { apply andb_false_iff in Eb as [Eb|Eb]; [apply negb_false_iff, Nat.eqb_eq in Eb; lia|apply Nat.eqb_neq in Eb; lia]. }
    clear Eb. apply wp_bind. apply lo_left; auto; try (simpl in *; lens; fail). intros gap4 D4 HL4 HLn4 HD4 HDn4.
    assert (fwd lt ord (l1 ++ l2) ((((out ++ u) ++ [y]) ++ u2) ++ [x]) v v2) as HF4.
    { apply fwd_left with (u := [x]); auto. intros Ho z w [<-|[]] Hw. destruct HF2 as [_ HF2]. destruct (HF2 Ho) as [F1 F2]. apply sorted_app in F2 as (_ & F2 & _).
      destruct (Huv2 Ho F2) as [_ U]. auto. }
    assert (exists a', l1 = a' ++ v) as Ha4. { exists (a ++ u ++ [x]). rewrite Ea. now rewrite <- !app_assoc. }
    match goal with |- wp (if ?b then ret (inr (true, mg', ?s)) else _) _ ?m => assert (lo_inv s m) as HI4 end.
    { exists ((((out ++ u) ++ [y]) ++ u2) ++ [x]), gap4, v, v2, D4. cj; auto; try (simpl in *; lens; fail). }
    simpl length in *.
    destruct (Nat.eqb_spec (length u + S (length v) - length u - 1) 1) as [E2|E2].
    { apply wp_ret. apply HQ; auto; simpl in *; lia. }
    destruct (_ || _); apply wp_ret; [|apply HQ; auto; simpl in *; lia]. split; [|simpl in *; lia]. cj; auto; simpl in *; lia.
Qed.

End Lo.

Lemma resize_buffer_wp : forall b n (m : mem A) (Q : buffer -> mem A -> Prop), bufok (length m) b -> 0 < n ->
  (forall b', bufok (length m) b' -> fst b' = length m -> n <= snd b' -> Q b' (m ++ repeat Raw (snd b'))) ->
  wp (resize_buffer b n) Q (m ++ repeat Raw (snd b)).
Proof.
  intros b n m Q HB Hn HQ. unfold resize_buffer. destruct (Nat.ltb_spec (snd b) n).
  - apply wp_bind. apply return_temporary_buffer_wp; auto. apply wp_bind, wp_alloc, wp_ret. apply (HQ (length m, n)); simpl; auto. now right.
  - apply wp_ret. apply HQ; auto. destruct HB; auto. lia.
Qed.

Definition merged (pre post : mem A) (l1 l2 : list A) (Q : tim_state -> mem A -> Prop) : Prop :=
  forall ys mg b, stable_rel lt ord (l1 ++ l2) ys -> bufok (length pre + length l1 + length l2 + length post) b ->
    Q (mg, b) (pre ++ map Val ys ++ post ++ repeat Raw (snd b)).

Lemma merge_first : forall pre post y0 l2' l1 mg b base1 last (Q : tim_state -> mem A -> Prop), length l1 = 1 ->
  (ord -> sorted lt l1) -> (ord -> sorted lt (y0 :: l2')) ->
  (ord -> forall x y, In x l1 -> In y (y0 :: l2') -> lt y x = true) ->
  bufok (length pre + length l1 + length (y0 :: l2') + length post) b ->
  base1 = length pre -> last = length pre + length l1 + length (y0 :: l2') ->
  merged pre post l1 (y0 :: l2') Q ->
  wp (rotate_left base1 last ;; ret (mg, b)) Q (pre ++ map Val l1 ++ map Val (y0 :: l2') ++ post ++ repeat Raw (snd b)).
Proof.
  intros pre post y0 l2' l1 mg b base1 last Q H1 S1 S2 HA HB -> -> HQ. destruct l1 as [|x [|? ?]]; try discriminate.
  reshape (pre ++ map Val (x :: y0 :: l2') ++ post ++ repeat Raw (snd b)). apply wp_bind. apply rotate_left_wp; [auto|lens|]. apply wp_ret.
  apply HQ; auto. split.
  - apply (st_swap lt ord HORD [x] (y0 :: l2')). auto.
  - intros Ho. apply sorted_app. cj; auto. intros z w Hz [<-|[]]. apply (lt_asym lt (HORD Ho)). apply HA; simpl; auto.
Qed.
Lemma merge_second : forall pre post l1 l2 mg b base1 last (Q : tim_state -> mem A -> Prop), length l2 = 1 ->
  (ord -> sorted lt l1) ->
  (ord -> forall x y, In x l1 -> In y l2 -> lt y x = true) ->
  bufok (length pre + length l1 + length l2 + length post) b ->
  base1 = length pre -> last = length pre + length l1 + length l2 ->
  merged pre post l1 l2 Q ->
  wp (rotate_right base1 last ;; ret (mg, b)) Q (pre ++ map Val l1 ++ map Val l2 ++ post ++ repeat Raw (snd b)).
Proof.
  intros pre post l1 l2 mg b base1 last Q H1 S1 HA HB -> -> HQ. destruct l2 as [|x [|? ?]]; try discriminate.
  reshape (pre ++ map Val (l1 ++ [x]) ++ post ++ repeat Raw (snd b)). apply wp_bind. apply rotate_right_wp; [auto|lens|]. apply wp_ret.
  apply HQ; auto. split.
  - apply (st_swap lt ord HORD l1 [x]). auto.
  - intros Ho. apply sorted_cons. split; auto. intros z Hz. apply (lt_asym lt (HORD Ho)). apply HA; simpl; auto.
Qed.

Lemma merge_lo_wp : forall pre post l1' x0 y0 l2' l1 l2 base1 len1 base2 len2 mg b (Q : tim_state -> mem A -> Prop),
  l1 = l1' ++ [x0] -> l2 = y0 :: l2' -> (ord -> sorted lt l1) -> (ord -> sorted lt l2) ->
  (ord -> forall x, In x l1 -> lt y0 x = true) -> (ord -> forall y, In y l2 -> lt y x0 = true) ->
  base1 = length pre -> len1 = length l1 -> base2 = base1 + len1 -> len2 = length l2 ->
  bufok (length pre + length l1 + length l2 + length post) b ->
  merged pre post l1 l2 Q ->
  wp (merge_lo comp proj strict base1 len1 base2 len2 (mg, b)) Q (pre ++ map Val l1 ++ map Val l2 ++ post ++ repeat Raw (snd b)).
Proof.
  intros pre post l1' x0 y0 l2' l1 l2 base1 len1 base2 len2 mg b Q E1 E2 S1 S2 HF HLs -> -> -> -> HB HQ. unfold merge_lo.
  asrt. { rewrite E1. lens. } asrt. { rewrite E2. simpl. lia. } asrt.
  destruct (Nat.eqb_spec (length l1) 1) as [H1|H1].
  { rewrite E2 in *. apply merge_first; auto. intros Ho x y Hx Hy. rewrite E1 in H1, Hx. destruct l1' as [|? l1']; [|rewrite app_length in H1; simpl in H1; lia].
    destruct Hx as [<-|[]]. auto. }
  destruct (Nat.eqb_spec (length l2) 1) as [H2|H2].
  { apply merge_second; auto. intros Ho x y Hx Hy. rewrite E2 in H2, Hy. destruct l2' as [|? l2']; [|simpl in H2; lia]. destruct Hy as [<-|[]]. auto. }
  apply wp_bind. reshape ((pre ++ map Val l1 ++ map Val l2 ++ post) ++ repeat Raw (snd b)). apply resize_buffer_wp.
  { replace (length (pre ++ map Val l1 ++ map Val l2 ++ post)) with (length pre + length l1 + length l2 + length post) by lens. auto. }
  { rewrite E1. lens. }
  intros [base size] HB' Hb Hs. simpl in Hb, Hs. clear b HB. simpl snd. simpl fst.
  assert (exists k, size = length l1 + k) as [k ->] by (exists (size - length l1); lia). rewrite repeat_app.
  apply wp_bind. reshape (pre ++ map Val l1 ++ (map Val l2 ++ post) ++ repeat Raw (length l1) ++ repeat Raw k).
  apply uninitialized_move_seg; auto. { lens. }
  apply wp_bind.
  assert (length l1 > 1) as HN1. { rewrite E1, app_length in *. simpl in *. lia. }
  assert (exists n, length l1 = S n) as [n En] by (exists (length l1 - 1); lia). replace (repeat (@Moved A) (length l1)) with (@Moved A :: repeat Moved n) by (now rewrite En).
  reshape (pre ++ Moved :: repeat Moved n ++ Val y0 :: map Val l2' ++ post ++ map Val l1 ++ repeat Raw k). { rewrite E2. solve_app. }
  apply wp_move_to_left; [lens|lens|discriminate|].
  apply wp_bind. apply (merge_outer_wp (lo_inv pre post (repeat Raw k) l1 l2) lo_going lo_done).
  - intros. eapply lo_count_wp; eauto.
  - intros. eapply lo_gallop_wp with (x0 := x0); eauto.
  - rewrite E2. simpl. lia.
  - exists [y0], (repeat Moved n ++ [Moved]), l1, l2', []. cj; try (subst l2; lens; fail); auto.
    + solve_app.
    + apply Forall_app. split; [|repeat constructor; discriminate]. apply Forall_forall. intros c Hc. apply repeat_spec in Hc as ->. discriminate.
    + exists []. auto.
    + exists [y0]. auto.
    + rewrite E2. split.
      * apply (st_swap_mid lt ord HORD [] l1 [y0] l2'). intros Ho x y Hx [<-|[]]. auto.
      * intros Ho. split; [|rewrite E2 in S2; auto]. apply sorted_cons. split; auto. intros x Hx. apply (lt_asym lt (HORD Ho)). auto.
  - simpl. rewrite E2 in *. simpl in *. lia.
  - intros mg' [[[[c1 n1] c2] n2] d] m' HI HD. simpl in HD.
    destruct HI as (out & gap & b1 & r2 & D & -> & HL & HLn & HDl & HDn & (a & Ea) & (c & Ec) & HW & -> & -> & -> & -> & ->).
    assert (length l1 + length l2 = length out + length b1 + length r2) as HLEN.
    { destruct HW as [HW _]. apply st_length in HW. rewrite !app_length in HW. lia. }
    apply wp_bind.
    apply wp_mono with (Q := fun _ m => exists ys D', stable_rel lt ord (l1 ++ l2) ys /\ Forall live D' /\ length D' = length l1 /\
       m = pre ++ map Val ys ++ post ++ D' ++ repeat Raw k).
    { destruct (Nat.eqb_spec (length b1) 1) as [Hb1|Hb1].
      - destruct b1 as [|x [|? ?]]; try discriminate. assert (0 < length r2) as Hr2 by (simpl in *; lia).
        asrt. apply wp_bind. rewrite <- (app_nil_r r2). apply lo_block_right; auto; try (rewrite ?app_nil_r; lens; fail). { intros ->. discriminate. }
        intros gap' _ HL' HLn'.
        assert (fwd lt ord (l1 ++ l2) (out ++ r2) [x] []) as HW2.
        { apply fwd_right; auto. { now rewrite app_nil_r. } intros Ho z w [<-|[]] Hw. rewrite E1 in Ea. apply app_inj_tail in Ea as [_ <-]. apply HLs; auto. rewrite Ec. apply in_app_iff; auto. }
        apply lo_left; auto; try (rewrite ?app_nil_r; lens; fail). intros gap2 D2 HL2 HLn2 HD2 HDn2. destruct gap2; [|discriminate].
        exists ((out ++ r2) ++ [x]), D2. destruct HW2 as [W1 W2]. cj; auto; try (lens; fail).
        + split; [exact W1|]. intros Ho. destruct (W2 Ho). auto.
      - apply wp_bind, contract_wp. { intros Ho. apply negb_true_iff, Nat.eqb_neq. destruct HD as [HD|[HD|[_ HD]]]; [lia|lia|now destruct (HD Ho)]. }
        apply wp_bind, contract_wp. { intros Ho. apply Nat.eqb_eq. destruct HD as [HD|[HD|[_ HD]]]; [lia|lia|now destruct (HD Ho)]. }
        apply wp_bind, contract_wp. { intros Ho. apply Nat.ltb_lt. destruct HD as [HD|[HD|[_ HD]]]; [lia|lia|now destruct (HD Ho)]. }
        apply wp_bind.
        destruct b1 as [|x b1].
        + destruct gap; [|discriminate]. unfold move_range. apply wp_loop' with (I := fun '(f, r) m => f = length pre + length out + length (@nil (cell A)) + length r2 + length post + length D /\
             m = pre ++ map Val out ++ [] ++ map Val r2 ++ post ++ D ++ map Val [] ++ repeat Raw k) (mu := fun _ => 0); auto; [lens|].
          intros [f r] m [-> ->]. match goal with |- context [?a =? ?b] => replace (a =? b) with true by (symmetry; apply Nat.eqb_eq; lens) end. apply wp_ret, wp_ret.
          exists (out ++ r2), D. cj; auto; try (lens; fail).
          * destruct HW as [W1 W2]. split; auto. intros Ho. destruct (W2 Ho). auto.
          * solve_app.
        + assert (r2 = []) as ->. { destruct r2; auto. simpl in *. exfalso. lia. }
          reshape ((pre ++ map Val out) ++ gap ++ (post ++ D) ++ map Val (x :: b1) ++ repeat Raw k).
          apply move_range_far; auto; try (lens; fail). intros D2 HD2 HDn2. apply wp_ret.
          exists (out ++ x :: b1), (D ++ D2). cj; auto; try (lens; fail).
          * destruct HW as [W1 W2]. split; auto. { rewrite app_nil_r in W1. auto. } intros Ho. destruct (W2 Ho). auto.
          * apply Forall_app; auto.
          * solve_app. }
    intros _ m2 (ys & D' & HR & HD' & HDn' & ->). apply wp_bind.
    assert (length ys = length l1 + length l2) as HY. { destruct HR as [HR _]. apply st_length in HR. rewrite app_length in HR. lia. }
    reshape ((pre ++ map Val ys ++ post) ++ D' ++ repeat Raw k). apply destroy_n_seg; auto. { lens. } apply wp_ret.
    replace ((pre ++ map Val ys ++ post) ++ repeat Raw (length D') ++ repeat Raw k) with (pre ++ map Val ys ++ post ++ repeat Raw (snd (base, length l1 + k))).
    + apply HQ; auto. right. simpl. lens.
    + simpl snd. rewrite HDn', repeat_app. solve_app.
Qed.
End Merge.
