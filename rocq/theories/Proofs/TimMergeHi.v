(** mergeHi and mergeConsecutiveRuns of timsort. *)
From Coq Require Import List Arith Lia Permutation Bool ZArith.
From Verif Require Import Spec.Order Lang.Mem Spec.Sorts Proofs.Wp Proofs.OrderLib Model.Basic Proofs.Basic Model.Rotate Proofs.Rotate
  Model.Search Proofs.Search Proofs.Indirect Model.Buffer Model.Select Proofs.IndexLib Proofs.Stable Proofs.MergeSort Model.Tim Proofs.Tim Proofs.TimMerge.
Import ListNotations.

Section Merge.
Context {A T : Type} (comp : T -> T -> bool) (proj : A -> T).
Notation lt := (by_proj comp proj).
Variable ord : Prop.
Hypothesis HORD : ord -> strict_weak_order lt.
Variable strict : bool.
Hypothesis HSTR : strict = true -> ord.
Notation st := (st lt ord).
Notation le := (OrderLib.le lt).
Notation live := (fun c : cell A => c <> Raw).

Section Hi.
Variables pre post R : mem A.

Lemma hi_block_left : forall u v out gap r2 D f l d (Q : nat -> mem A -> Prop), gap <> [] -> Forall live gap ->
  f = length pre + length u -> l = f + length v -> d = l + length gap ->
  (forall gap' n, Forall live gap' -> length gap' = length gap -> Q n (pre ++ map Val u ++ gap' ++ map Val (v ++ out) ++ post ++ map Val r2 ++ D ++ R)) ->
  wp (move_backward f l d) Q (pre ++ map Val (u ++ v) ++ gap ++ map Val out ++ post ++ map Val r2 ++ D ++ R).
Proof.
  intros u v out gap r2 D f l d Q Hne HL -> -> -> HQ.
  reshape ((pre ++ map Val u) ++ map Val v ++ gap ++ map Val out ++ post ++ map Val r2 ++ D ++ R).
  apply move_backward_right_wp; auto; try (lens; fail). intros G' HG HG'.
  replace ((pre ++ map Val u) ++ G' ++ map Val v ++ map Val out ++ post ++ map Val r2 ++ D ++ R)
    with (pre ++ map Val u ++ G' ++ map Val (v ++ out) ++ post ++ map Val r2 ++ D ++ R) by solve_app. auto.
Qed.
Lemma hi_left : forall u x out gap r2 D c1 d (Q : unit -> mem A -> Prop), gap <> [] -> Forall live gap ->
  c1 = length pre + length u -> d = c1 + length gap ->
  (forall gap', Forall live gap' -> length gap' = length gap -> Q tt (pre ++ map Val u ++ gap' ++ map Val (x :: out) ++ post ++ map Val r2 ++ D ++ R)) ->
  wp (move_to c1 d) Q (pre ++ map Val (u ++ [x]) ++ gap ++ map Val out ++ post ++ map Val r2 ++ D ++ R).
Proof.
  intros u x out gap r2 D c1 d Q Hne HL -> -> HQ. destruct gap as [|c gap] using rev_ind; [congruence|]. clear IHgap.
  apply Forall_app in HL as [HL1 HL2]. inversion HL2; subst.
  reshape ((pre ++ map Val u) ++ Val x :: gap ++ c :: map Val out ++ post ++ map Val r2 ++ D ++ R).
  apply wp_move_to_right; [lens|lens|auto|].
  replace ((pre ++ map Val u) ++ Moved :: gap ++ Val x :: map Val out ++ post ++ map Val r2 ++ D ++ R)
    with (pre ++ map Val u ++ (Moved :: gap) ++ map Val (x :: out) ++ post ++ map Val r2 ++ D ++ R) by solve_app.
  apply HQ; [|lens]. constructor; auto. discriminate.
Qed.
Lemma hi_block_right : forall u v b1 out gap D f l d (Q : nat -> mem A -> Prop), length gap = length (u ++ v) -> Forall live gap -> Forall live D ->
  d = length pre + length b1 + length u -> f = d + length v + length out + length post + length u -> l = f + length v ->
  (forall gap' D' n, Forall live gap' -> length gap' = length u -> Forall live D' -> length D' = length D + length v ->
     Q n (pre ++ map Val b1 ++ gap' ++ map Val (v ++ out) ++ post ++ map Val u ++ D' ++ R)) ->
  wp (move_range f l d) Q (pre ++ map Val b1 ++ gap ++ map Val out ++ post ++ map Val (u ++ v) ++ D ++ R).
Proof.
  intros u v b1 out gap D f l d Q HLn HL HD -> -> -> HQ. rewrite app_length in HLn.
  assert (exists g1 g2, gap = g1 ++ g2 /\ length g1 = length u /\ length g2 = length v) as (g1 & g2 & -> & Hg1 & Hg2).
  { exists (firstn (length u) gap), (skipn (length u) gap). cj; [now rewrite firstn_skipn|rewrite firstn_length; lia|rewrite skipn_length; lia]. }
  apply Forall_app in HL as [HL1 HL2].
  reshape ((pre ++ map Val b1 ++ g1) ++ g2 ++ (map Val out ++ post ++ map Val u) ++ map Val v ++ D ++ R).
  apply move_range_far; auto; try (lens; fail). intros D2 HD2 HLD.
  replace ((pre ++ map Val b1 ++ g1) ++ map Val v ++ (map Val out ++ post ++ map Val u) ++ D2 ++ D ++ R)
    with (pre ++ map Val b1 ++ g1 ++ map Val (v ++ out) ++ post ++ map Val u ++ (D2 ++ D) ++ R) by solve_app.
  apply HQ; auto; [|lens]. apply Forall_app. auto.
Qed.
Lemma hi_right : forall u y b1 out gap D c2 d (Q : unit -> mem A -> Prop), length gap = S (length u) -> Forall live gap -> Forall live D ->
  d = length pre + length b1 + length u -> c2 = length pre + length b1 + length gap + length out + length post + length u ->
  (forall gap' D', Forall live gap' -> length gap' = length u -> Forall live D' -> length D' = S (length D) ->
     Q tt (pre ++ map Val b1 ++ gap' ++ map Val (y :: out) ++ post ++ map Val u ++ D' ++ R)) ->
  wp (move_to c2 d) Q (pre ++ map Val b1 ++ gap ++ map Val out ++ post ++ map Val (u ++ [y]) ++ D ++ R).
Proof.
  intros u y b1 out gap D c2 d Q HLn HL HD -> -> HQ. destruct gap as [|c gap] using rev_ind; [discriminate|]. clear IHgap.
  apply Forall_app in HL as [HL1 HL2]. inversion HL2; subst.
  reshape ((pre ++ map Val b1 ++ gap) ++ c :: (map Val out ++ post ++ map Val u) ++ Val y :: D ++ R).
  apply wp_move_to_left; [lens|lens|auto|].
  replace ((pre ++ map Val b1 ++ gap) ++ Val y :: (map Val out ++ post ++ map Val u) ++ Moved :: D ++ R)
    with (pre ++ map Val b1 ++ gap ++ map Val (y :: out) ++ post ++ map Val u ++ (Moved :: D) ++ R) by solve_app.
  apply HQ; auto; lens. constructor; auto. discriminate.
Qed.

Variables (l1 l2 l2' : list A) (y0 : A).
Hypothesis E2 : l2 = y0 :: l2'.
Hypothesis Hfirst : ord -> forall x, In x l1 -> lt y0 x = true.

Definition hi_inv (s : cursors) (m : mem A) : Prop := let '(c1, n1, c2, n2, d) := s in
  exists out gap b1 r2 D, m = pre ++ map Val b1 ++ gap ++ map Val out ++ post ++ map Val r2 ++ D ++ R /\
    Forall live gap /\ length gap = length r2 /\ Forall live D /\ length r2 + length D = length l2 /\
    (exists a, l1 = b1 ++ a) /\ (exists c, l2 = r2 ++ c) /\
    bwd lt ord (l1 ++ l2) out b1 r2 /\
    length b1 + length gap + length out = length l1 + length l2 /\
    c1 = length pre + length b1 /\ n1 = length b1 /\
    c2 = length pre + length l1 + length l2 + length post + length r2 - 1 /\ n2 = length r2 /\
    d = length pre + length b1 + length gap - 1.

Definition hi_going (s : cursors) : Prop := let '(c1, n1, c2, n2, d) := s in 0 < n1 /\ 1 < n2.
Definition hi_done (s : cursors) : Prop := let '(c1, n1, c2, n2, d) := s in
  (n2 = 1 /\ 0 < n1) \/ (1 < n2 /\ n1 = 0) \/ (n2 = 0 /\ ~ ord).

Lemma hi_count_wp : forall mg s m (Q : bool * cursors -> mem A -> Prop), hi_inv s m -> hi_going s ->
  (forall brk s' m', hi_inv s' m' -> left_over s' < left_over s -> (if brk : bool then hi_done s' else hi_going s') -> Q (brk, s') m') ->
  wp (hi_count comp proj mg s) Q m.
Proof.
  intros mg [[[[c1 n1] c2] n2] d] m Q HI HG HQ. unfold hi_count.
  apply wp_loop' with (I := fun '(k1, k2, (c1', n1', c2', n2', d')) m' => hi_inv (S c1', n1', c2', n2', d') m' /\ hi_going (S c1', n1', c2', n2', d') /\ n1' + n2' <= n1 + n2)
    (mu := fun '(k1, k2, s') => left_over s').
  - destruct HG as [HG1 HG2]. replace (S (c1 - 1)) with c1. { split; auto. split; [split; auto|lia]. }
    destruct HI as (out & gap & b1 & r2 & D & -> & HL & HLn & HD & HDn & (a & Ea) & (c & Ec) & HF & Hg & -> & -> & -> & -> & ->). lia.
  - simpl. lia.
  - intros [[k1 k2] [[[[c1' n1'] c2'] n2'] d']] m' (HI' & [HG1 HG2] & HLO).
    destruct HI' as (out & gap & b1 & r2 & D & -> & HL & HLn & HD & HDn & (a & Ea) & (c & Ec) & HF & Hg & Hc1 & -> & -> & -> & ->).
    asrt. asrt. destruct b1 as [|x b1 _] using rev_ind; [simpl in HG1; lia|]. destruct r2 as [|y r2 _] using rev_ind; [simpl in HG2; lia|].
    rewrite !app_length in *. simpl length in *.
    assert (c1' = length pre + length b1) as -> by lia. clear Hc1.
    assert (gap <> []) as Hne by (intros ->; simpl in *; lia).
    apply wp_bind. eapply wp_less_at with (x := y) (y := x).
    { replace (pre ++ map Val (b1 ++ [x]) ++ gap ++ map Val out ++ post ++ map Val (r2 ++ [y]) ++ D ++ R)
        with ((pre ++ map Val (b1 ++ [x]) ++ gap ++ map Val out ++ post ++ map Val r2) ++ Val y :: D ++ R) by solve_app. apply nth_at. lens. }
    { replace (pre ++ map Val (b1 ++ [x]) ++ gap ++ map Val out ++ post ++ map Val (r2 ++ [y]) ++ D ++ R)
        with ((pre ++ map Val b1) ++ Val x :: gap ++ map Val out ++ post ++ map Val (r2 ++ [y]) ++ D ++ R) by solve_app. apply nth_at. lens. }
    assert (ord -> sorted lt (b1 ++ [x]) /\ sorted lt (r2 ++ [y])) as HSS.
    { intros Ho. destruct HF as [_ HF]. destruct (HF Ho) as [F1 F2]. apply sorted_app in F1, F2. tauto. }
    destruct (lt y x) eqn:Eyx.
    + apply wp_bind. apply hi_left; auto; try lia. intros gap' HL' HLn'.
      match goal with |- wp _ _ ?m => assert (hi_inv (length pre + length b1, length b1 + 1 - 1, length pre + length l1 + length l2 + length post + (length r2 + 1) - 1, length r2 + 1,
                length pre + (length b1 + 1) + length gap - 1 - 1) m) as HI' end.
      { exists (x :: out), gap', b1, (r2 ++ [y]), D. cj; auto; try (lens; fail); eauto.
        - exists (x :: a). rewrite Ea, <- app_assoc. auto.
        - apply bwd_left with (v := [x]); auto. intros Ho u v [<-|[]] Hv. destruct (HSS Ho) as [S1 S2]. apply in_app_or in Hv as [Hv|[<-|[]]]; auto.
          apply sorted_app in S2 as (_ & _ & S2). apply (le_lt_trans lt (HORD Ho)) with y; auto. apply S2; simpl; auto. }
      destruct (Nat.eqb_spec (length b1 + 1 - 1) 0) as [E0|E0].
      * apply wp_ret. apply HQ; auto; simpl in *; lia.
      * replace (length pre + length b1) with (S (length pre + length b1 - 1)) in HI' by lia.
        destruct (_ <? mg)%Z; apply wp_ret; [|apply HQ; auto; simpl in *; lia]. split; [|simpl in *; lia]. cj; auto; simpl in *; lia.
    + apply wp_bind. apply hi_right; auto; try (lens; fail). intros gap' D' HL' HLn' HD' HDn'.
      match goal with |- wp _ _ ?m => assert (hi_inv (S (length pre + length b1), length b1 + 1, length pre + length l1 + length l2 + length post + (length r2 + 1) - 1 - 1, length r2 + 1 - 1,
                length pre + (length b1 + 1) + length gap - 1 - 1) m) as HI' end.
      { exists (y :: out), gap', (b1 ++ [x]), r2, D'. cj; auto; try (lens; fail); eauto.
        - exists (y :: c). rewrite Ec, <- app_assoc. auto.
        - apply bwd_right with (v := [y]); auto. intros Ho u v Hu [<-|[]]. destruct (HSS Ho) as [S1 S2]. apply in_app_or in Hu as [Hu|[<-|[]]]; auto.
          apply sorted_app in S1 as (_ & _ & S1). apply (le_trans lt (HORD Ho)) with x; auto. apply S1; simpl; auto. }
      destruct (Nat.eqb_spec (length r2 + 1 - 1) 1) as [E0|E0].
      * apply wp_ret. apply HQ; auto; simpl in *; lia.
      * destruct (_ <? mg)%Z; apply wp_ret; [|apply HQ; auto; simpl in *; lia]. split; [|simpl in *; lia]. cj; auto; simpl in *; lia.
Qed.

Lemma hi_gallop_wp : forall base1 buf mg s m (Q : bool * Z * cursors -> mem A -> Prop),
  base1 = length pre -> buf = length pre + length l1 + length l2 + length post -> hi_inv s m -> hi_going s ->
  (forall brk mg' s' m', hi_inv s' m' -> left_over s' < left_over s -> (if brk : bool then hi_done s' else hi_going s') -> Q (brk, mg', s') m') ->
  wp (hi_gallop comp proj base1 buf mg s) Q m.
Proof.
  intros base1 buf mg [[[[c1 n1] c2] n2] d] m Q -> -> HI HG HQ. unfold hi_gallop.
  apply wp_loop' with (I := fun '(mg', s') m' => hi_inv s' m' /\ hi_going s' /\ left_over s' <= n1 + n2)
    (mu := fun '(mg', s') => left_over s').
  - cj; auto.
  - simpl. lia.
  - intros [mg' [[[[c1' n1'] c2'] n2'] d']] m' (HI' & [HG1 HG2] & HLO).
    destruct HI' as (out & gap & b1 & r2 & D & -> & HL & HLn & HD & HDn & (a & Ea) & (c & Ec) & HF & Hg & -> & -> & -> & -> & ->).
    asrt. asrt. destruct r2 as [|y r2 _] using rev_ind; [simpl in HG2; lia|].
    apply wp_bind. reshape ((pre ++ map Val b1 ++ gap ++ map Val out ++ post ++ map Val r2) ++ Val y :: D ++ R). apply wp_get_at. { lens. }
    apply wp_bind. reshape (pre ++ map Val b1 ++ gap ++ map Val out ++ post ++ map Val (r2 ++ [y]) ++ D ++ R).
    assert (ord -> sorted lt b1 /\ sorted lt (r2 ++ [y])) as HSS.
    { intros Ho. destruct HF as [_ HF]. destruct (HF Ho) as [F1 F2]. apply sorted_app in F1, F2. tauto. }
    apply (gallop_right_wp comp proj ord HORD); try (lens; fail). intros u v -> Huv. rewrite !app_length in *. simpl length in *. simpl left_over in *.
    assert (gap <> []) as Hne by (intros ->; simpl in *; lia).
    apply wp_bind.
    apply wp_mono with (Q := fun _ m => exists gap', Forall live gap' /\ length gap' = length gap /\
       m = pre ++ map Val u ++ gap' ++ map Val (v ++ out) ++ post ++ map Val (r2 ++ [y]) ++ D ++ R).
    { destruct (Nat.eqb_spec (length u + length v - length u) 0) as [Eu|Eu]; cbn [negb].
      - destruct v; [|simpl in *; lia]. apply wp_ret. exists gap. cj; auto. solve_app.
      - apply wp_bind. apply hi_block_left; auto; try (lens; fail). intros gap' n H1 H2. apply wp_ret. exists gap'. auto. }
    intros _ m1 (gap1 & HL1 & HLn1 & ->).
    assert (bwd lt ord (l1 ++ l2) (v ++ out) u (r2 ++ [y])) as HF1.
    { apply bwd_left; auto. intros Ho z w Hz Hw. destruct (HSS Ho) as [S1 S2]. destruct (Huv Ho S1) as [_ U]. specialize (U z Hz).
      apply in_app_or in Hw as [Hw|[<-|[]]]; auto. apply sorted_app in S2 as (_ & _ & S2). apply (le_lt_trans lt (HORD Ho)) with y; auto. apply S2; simpl; auto. }
    clear HL HF. rename HDn into HDn0. rename HLn into HLn0.
    assert (exists a', l1 = u ++ a') as Ha1. { exists (v ++ a). rewrite Ea. now rewrite <- app_assoc. }
    destruct (negb (length u + length v - length u =? 0) && (length u + length v - (length u + length v - length u) =? 0)) eqn:Eb.
    { apply wp_ret. apply andb_true_iff in Eb as [Eb1 Eb2]. apply negb_true_iff, Nat.eqb_neq in Eb1. apply Nat.eqb_eq in Eb2. apply HQ.
      - exists (v ++ out), gap1, u, (r2 ++ [y]), D. cj; auto; try (lens; fail). eauto.
      - simpl in *. lia.
      - simpl in *. lia. }
    assert (0 < length u) as Hu1.
    { apply andb_false_iff in Eb as [Eb|Eb]; [apply negb_false_iff, Nat.eqb_eq in Eb; lia|apply Nat.eqb_neq in Eb; lia]. }
    clear Eb. 
    apply wp_bind. apply hi_right; auto; try (lens; fail). intros gap2 D2 HL2 HLn2 HD2 HDn2.
    assert (bwd lt ord (l1 ++ l2) (y :: v ++ out) u r2) as HF2.
    { apply bwd_right with (v := [y]); auto. intros Ho z w Hz [<-|[]]. destruct (HSS Ho) as [S1 S2]. destruct (Huv Ho S1) as [U _]. auto. }
    assert (exists c', l2 = r2 ++ c') as Hc2. { exists (y :: c). rewrite Ec. now rewrite <- app_assoc. }
    destruct (Nat.eqb_spec (length r2 + 1 - 1) 1) as [E0|E0].
    { apply wp_ret. apply HQ.
      - exists (y :: v ++ out), gap2, u, r2, D2. cj; auto; try (lens; fail).
      - simpl in *. lia.
      - simpl in *. lia. }
    destruct u as [|x u _] using rev_ind; [simpl in Hu1; lia|]. rewrite !app_length in *. simpl length in *.
    apply wp_bind. reshape ((pre ++ map Val u) ++ Val x :: gap2 ++ map Val (y :: v ++ out) ++ post ++ map Val r2 ++ D2 ++ R). apply wp_get_at. { lens. }
    apply wp_bind. reshape ((pre ++ map Val (u ++ [x]) ++ gap2 ++ map Val (y :: v ++ out) ++ post) ++ map Val r2 ++ D2 ++ R).
    apply (gallop_left_wp comp proj ord HORD); try (lens; fail). intros u2 v2 -> Huv2. rewrite !app_length in *. simpl length in *.
    assert (ord -> u2 <> []) as Hu2.
    { intros Ho ->. destruct HF2 as [_ HF2]. destruct (HF2 Ho) as [_ F2]. apply sorted_app in F2 as (F2 & _ & _). destruct (Huv2 Ho F2) as [_ U].
      destruct v2 as [|z v2]; [simpl in *; lia|]. destruct Hc2 as [c' Hc2]. rewrite E2 in Hc2. injection Hc2 as <- _. specialize (U y0 (or_introl eq_refl)).
      red in U. rewrite Hfirst in U; auto; [discriminate|]. rewrite Ea, <- app_assoc. apply in_app_iff. left. apply in_app_iff. simpl; auto. }
    apply wp_bind.
    apply wp_mono with (Q := fun _ m => exists gap' D', Forall live gap' /\ length gap' = length u2 /\ Forall live D' /\ length D' = length D2 + length v2 /\
       m = pre ++ map Val (u ++ [x]) ++ gap' ++ map Val (v2 ++ y :: v ++ out) ++ post ++ map Val u2 ++ D' ++ R).
    { destruct (Nat.eqb_spec (length u2 + length v2 + 1 - 1 - length u2) 0) as [Eu|Eu]; cbn [negb].
      - destruct v2; [|simpl in *; lia]. apply wp_ret. exists gap2, D2. simpl in *. cj; auto; try lia. rewrite app_nil_r. solve_app.
      - apply wp_bind. reshape (pre ++ map Val (u ++ [x]) ++ gap2 ++ map Val (y :: v ++ out) ++ post ++ map Val (u2 ++ v2) ++ D2 ++ R).
        apply hi_block_right; auto; try (lens; fail). intros gap' D' n H1 H2 H3 H4. apply wp_ret. exists gap', D'. auto. }
    intros _ m3 (gap3 & D3 & HL3 & HLn3 & HD3 & HDn3 & ->).
    assert (bwd lt ord (l1 ++ l2) (v2 ++ y :: v ++ out) (u ++ [x]) u2) as HF3.
    { apply bwd_right; auto. intros Ho z w Hz Hw. destruct HF2 as [_ HF2]. destruct (HF2 Ho) as [F1 F2]. apply sorted_app in F1 as (F1 & _ & _), F2 as (F2 & _ & _).
      destruct (Huv2 Ho F2) as [_ U]. specialize (U w Hw). apply in_app_or in Hz as [Hz|[<-|[]]]; auto. apply sorted_app in F1 as (_ & _ & F1).
      apply (le_trans lt (HORD Ho)) with x; auto. apply F1; simpl; auto. }
    assert (exists c', l2 = u2 ++ c') as Hc3. { exists (v2 ++ y :: c). rewrite Ec. now rewrite <- !app_assoc. }
    destruct (negb (length u2 + length v2 + 1 - 1 - length u2 =? 0) && (length u2 + length v2 + 1 - 1 - (length u2 + length v2 + 1 - 1 - length u2) <=? 1)) eqn:Eb.
    { apply wp_ret. apply andb_true_iff in Eb as [Eb1 Eb2]. apply negb_true_iff, Nat.eqb_neq in Eb1. apply Nat.leb_le in Eb2. apply HQ.
      - exists (v2 ++ y :: v ++ out), gap3, (u ++ [x]), u2, D3. cj; auto; try (lens; fail).
      - simpl in *. lia.
      - simpl in *. destruct u2 as [|z u2]; [right; right; split; [simpl in *; lia|intros Ho; now apply Hu2]|left; simpl in *; lia]. }
    assert (1 < length u2) as Hv2.
    { apply andb_false_iff in Eb as [Eb|Eb]; [apply negb_false_iff, Nat.eqb_eq in Eb; lia|apply Nat.leb_gt in Eb; lia]. }
    clear Eb. apply wp_bind. apply hi_left; auto; try (lens; fail). { intros ->. simpl in *. lia. } intros gap4 HL4 HLn4.
    assert (bwd lt ord (l1 ++ l2) (x :: v2 ++ y :: v ++ out) u u2) as HF4.
    { apply bwd_left with (v := [x]); auto. intros Ho z w [<-|[]] Hw. destruct HF2 as [_ HF2]. destruct (HF2 Ho) as [F1 F2]. apply sorted_app in F2 as (F2 & _ & _).
      destruct (Huv2 Ho F2) as [U _]. auto. }
    assert (exists a', l1 = u ++ a') as Ha4. { exists (x :: v ++ a). rewrite Ea. now rewrite <- !app_assoc. }
    match goal with |- wp (if ?b then ret (inr (true, mg', ?s)) else _) _ ?m => assert (hi_inv s m) as HI4 end.
    { exists (x :: v2 ++ y :: v ++ out), gap4, u, u2, D3. cj; auto; try (lens; fail). }
    match goal with |- wp (if ?b then _ else _) _ _ => destruct b eqn:E3 end; [apply Nat.eqb_eq in E3|apply Nat.eqb_neq in E3].
    { apply wp_ret. apply HQ; auto; simpl in *; lia. }
    destruct (_ || _); apply wp_ret; [|apply HQ; auto; simpl in *; lia]. split; [|simpl in *; lia]. cj; auto; simpl in *; lia.
Qed.
End Hi.

Lemma merge_hi_wp : forall pre post l1' x0 y0 l2' l1 l2 base1 len1 base2 len2 mg b (Q : tim_state -> mem A -> Prop),
  l1 = l1' ++ [x0] -> l2 = y0 :: l2' -> (ord -> sorted lt l1) -> (ord -> sorted lt l2) ->
  (ord -> forall x, In x l1 -> lt y0 x = true) -> (ord -> forall y, In y l2 -> lt y x0 = true) ->
  base1 = length pre -> len1 = length l1 -> base2 = base1 + len1 -> len2 = length l2 ->
  bufok (length pre + length l1 + length l2 + length post) b ->
  merged comp proj ord pre post l1 l2 Q ->
  wp (merge_hi comp proj strict base1 len1 base2 len2 (mg, b)) Q (pre ++ map Val l1 ++ map Val l2 ++ post ++ repeat Raw (snd b)).
Proof.
  intros pre post l1' x0 y0 l2' l1 l2 base1 len1 base2 len2 mg b Q E1 E2 S1 S2 HF HLs -> -> -> -> HB HQ. unfold merge_hi.
  asrt. { rewrite E1. lens. } asrt. { rewrite E2. simpl. lia. } asrt.
  destruct (Nat.eqb_spec (length l1) 1) as [H1|H1].
  { rewrite E2 in *. apply (merge_first comp proj ord HORD); auto. intros Ho x y Hx Hy. rewrite E1 in H1, Hx. destruct l1' as [|? l1']; [|rewrite app_length in H1; simpl in H1; lia].
    destruct Hx as [<-|[]]. auto. }
  destruct (Nat.eqb_spec (length l2) 1) as [H2|H2].
  { apply (merge_second comp proj ord HORD); auto. intros Ho x y Hx Hy. rewrite E2 in H2, Hy. destruct l2' as [|? l2']; [|simpl in H2; lia]. destruct Hy as [<-|[]]. auto. }
  apply wp_bind. reshape ((pre ++ map Val l1 ++ map Val l2 ++ post) ++ repeat Raw (snd b)). apply resize_buffer_wp.
  { replace (length (pre ++ map Val l1 ++ map Val l2 ++ post)) with (length pre + length l1 + length l2 + length post) by lens. auto. }
  { rewrite E2. simpl. lia. }
  intros [base size] HB' Hb Hs. simpl in Hb, Hs. clear b HB. simpl snd. simpl fst.
  assert (exists k, size = length l2 + k) as [k ->] by (exists (size - length l2); lia). rewrite repeat_app.
  apply wp_bind. reshape ((pre ++ map Val l1) ++ map Val l2 ++ post ++ repeat Raw (length l2) ++ repeat Raw k).
  apply uninitialized_move_seg; auto; try (lens; fail).
  apply wp_bind.
  assert (length l2 > 1) as HN1. { rewrite E2 in *. simpl in *. lia. }
  assert (length l1 = S (length l1')) as HL1. { rewrite E1. rewrite app_length. simpl. lia. }
  assert (exists n, length l2 = S n) as [n En] by (exists (length l2 - 1); lia).
  replace (repeat (@Moved A) (length l2)) with (repeat (@Moved A) n ++ [Moved]) by (rewrite En; simpl; now rewrite repeat_cons).
  reshape ((pre ++ map Val l1') ++ Val x0 :: repeat Moved n ++ Moved :: post ++ map Val l2 ++ repeat Raw k). { rewrite E1. solve_app. }
  apply wp_move_to_right; [lens|lens|discriminate|].
  apply wp_bind. apply (merge_outer_wp (hi_inv pre post (repeat Raw k) l1 l2) hi_going hi_done).
  - intros. eapply hi_count_wp; eauto.
  - intros. eapply hi_gallop_wp with (y0 := y0); eauto. rewrite Hb. lens.
  - simpl. lia.
  - exists [x0], (Moved :: repeat Moved n), l1', l2, []. cj; try (lens; fail); auto.
    + solve_app.
    + constructor; [discriminate|]. apply Forall_forall. intros c Hc. apply repeat_spec in Hc as ->. discriminate.
    + exists [x0]. auto.
    + exists []. now rewrite app_nil_r.
    + rewrite E1. split.
      * rewrite <- app_assoc. replace (l1' ++ l2 ++ [x0]) with (l1' ++ l2 ++ [x0] ++ []) by solve_app. 
        replace (l1' ++ [x0] ++ l2) with (l1' ++ [x0] ++ l2 ++ []) by solve_app. 
        apply (st_swap_mid lt ord HORD l1' [x0] l2 []). intros Ho x y [<-|[]] Hy. auto.
      * intros Ho. split; [rewrite E1 in S1; auto|]. apply sorted_app. cj; auto. { apply sorted_one. } intros x y Hx [<-|[]]. apply (lt_asym lt (HORD Ho)). auto.
  - simpl. lia.
  - intros mg' [[[[c1 n1] c2] n2] d] m' HI HD. simpl in HD.
    destruct HI as (out & gap & b1 & r2 & D & -> & HL & HLn & HDl & HDn & (a & Ea) & (c & Ec) & HW & HLEN & -> & -> & -> & -> & ->).
    apply wp_bind.
    apply wp_mono with (Q := fun _ m => exists ys D', stable_rel lt ord (l1 ++ l2) ys /\ Forall live D' /\ length D' = length l2 /\
       m = pre ++ map Val ys ++ post ++ D' ++ repeat Raw k).
    { destruct (Nat.eqb_spec (length r2) 1) as [Hb1|Hb1].
      - destruct r2 as [|y [|? ?]]; try discriminate. assert (0 < length b1) as Hr2 by (simpl in *; lia).
        asrt. apply wp_bind. change (map Val b1) with (map Val ([] ++ b1)). apply hi_block_left; auto; try (simpl length in *; lia). { intros ->. discriminate. }
        intros gap' _ HL' HLn'.
        assert (bwd lt ord (l1 ++ l2) (b1 ++ out) [] [y]) as HW2.
        { apply bwd_left; auto. intros Ho z w Hz [<-|[]]. rewrite E2 in Ec. injection Ec as <- _. apply HF; auto. rewrite Ea. apply in_app_iff; auto. }
        change (map Val [y]) with (map Val ([] ++ [y])). apply hi_right; auto; try (rewrite ?app_length in *; simpl length in *; lia). intros gap2 D2 HL2 HLn2 HD2 HDn2. destruct gap2; [|discriminate].
        exists (y :: b1 ++ out), D2. destruct HW2 as [W1 W2]. simpl length in *. cj; auto; try lia.
        split; [exact W1|]. intros Ho. destruct (W2 Ho). auto.
      - apply wp_bind, contract_wp with (ord := ord). { auto. } { intros Ho. apply negb_true_iff, Nat.eqb_neq. destruct HD as [HD|[HD|[_ HD]]]; [lia|lia|now destruct (HD Ho)]. }
        apply wp_bind, contract_wp with (ord := ord). { auto. } { intros Ho. apply Nat.eqb_eq. destruct HD as [HD|[HD|[_ HD]]]; [lia|lia|now destruct (HD Ho)]. }
        apply wp_bind, contract_wp with (ord := ord). { auto. } { intros Ho. apply Nat.ltb_lt. destruct HD as [HD|[HD|[_ HD]]]; [lia|lia|now destruct (HD Ho)]. }
        apply wp_bind.
        destruct r2 as [|x r2].
        + destruct gap; [|discriminate]. unfold move_range. eapply wp_loop' with (I := fun '(f, r) m => f = base /\
             m = pre ++ map Val b1 ++ [] ++ map Val out ++ post ++ map Val [] ++ D ++ repeat Raw k) (mu := fun _ => 0); auto; [lens|].
          intros [f r] m [-> ->]. match goal with |- context [?a =? ?b] => replace (a =? b) with true by (symmetry; apply Nat.eqb_eq; lens) end. apply wp_ret, wp_ret.
          exists (b1 ++ out), D. cj; auto; try (lens; fail).
          * destruct HW as [W1 W2]. split; auto. intros Ho. destruct (W2 Ho). auto.
          * solve_app.
        + assert (b1 = []) as ->. { destruct b1; auto. simpl in *. exfalso. lia. }
          reshape (pre ++ gap ++ (map Val out ++ post) ++ map Val (x :: r2) ++ D ++ repeat Raw k).
          apply move_range_far; auto; try (lens; fail). intros D2 HD2 HDn2. apply wp_ret.
          exists ((x :: r2) ++ out), (D2 ++ D). cj; auto; try (lens; fail).
          * destruct HW as [W1 W2]. split; auto. intros Ho. destruct (W2 Ho). auto.
          * apply Forall_app; auto.
          * solve_app. }
    intros _ m2 (ys & D' & HR & HD' & HDn' & ->). apply wp_bind.
    assert (length ys = length l1 + length l2) as HY. { destruct HR as [HR _]. apply st_length in HR. rewrite app_length in HR. lia. }
    reshape ((pre ++ map Val ys ++ post) ++ D' ++ repeat Raw k). apply destroy_n_seg; auto. { rewrite Hb. lens. } apply wp_ret.
    replace ((pre ++ map Val ys ++ post) ++ repeat Raw (length D') ++ repeat Raw k) with (pre ++ map Val ys ++ post ++ repeat Raw (snd (base, length l2 + k))).
    + apply HQ; auto. right. simpl. rewrite Hb. lens.
    + simpl snd. rewrite HDn', repeat_app. solve_app.
Qed.

Lemma merge_consecutive_runs_wp : forall pre post l1 l2 base1 len1 base2 len2 mg b (Q : tim_state -> mem A -> Prop),
  l1 <> [] -> l2 <> [] -> (ord -> sorted lt l1) -> (ord -> sorted lt l2) ->
  base1 = length pre -> len1 = length l1 -> base2 = base1 + len1 -> len2 = length l2 ->
  bufok (length pre + length l1 + length l2 + length post) b ->
  merged comp proj ord pre post l1 l2 Q ->
  wp (merge_consecutive_runs comp proj strict base1 len1 base2 len2 (mg, b)) Q (pre ++ map Val l1 ++ map Val l2 ++ post ++ repeat Raw (snd b)).
Proof.
  intros pre post l1 l2 base1 len1 base2 len2 mg b Q N1 N2 S1 S2 -> -> -> -> HB HQ. unfold merge_consecutive_runs.
  assert (0 < length l1) as P1 by (destruct l1; simpl; [congruence|lia]).
  assert (0 < length l2) as P2 by (destruct l2; simpl; [congruence|lia]).
  asrt. asrt. asrt. destruct l2 as [|y l2]; [congruence|].
  apply wp_bind. reshape ((pre ++ map Val l1) ++ Val y :: map Val l2 ++ post ++ repeat Raw (snd b)). apply wp_get_at. { lens. }
  apply wp_bind. reshape (pre ++ map Val l1 ++ map Val (y :: l2) ++ post ++ repeat Raw (snd b)).
  apply (gallop_right_wp comp proj ord HORD); auto. intros u v -> Huv.
  assert (ord -> forall z w, In z u -> In w (y :: l2) -> le z w) as HU.
  { intros Ho z w Hz [<-|Hw]. { apply Huv; auto. } specialize (S2 Ho). apply sorted_cons in S2 as [S2 _]. apply (le_trans lt (HORD Ho)) with y; auto. apply Huv; auto. }
  destruct (Nat.eqb_spec (length (u ++ v) - length u) 0) as [E|E].
  { destruct v; [|lens]. rewrite app_nil_r in *. apply wp_ret. replace (pre ++ map Val u ++ map Val (y :: l2) ++ post ++ repeat Raw (snd b)) with (pre ++ map Val (u ++ y :: l2) ++ post ++ repeat Raw (snd b)) by solve_app.
    apply HQ; auto. split; [apply st_refl|]. intros Ho. apply sorted_app. cj; auto. }
  destruct v as [|x0 v _] using rev_ind. { rewrite app_nil_r in *. lia. }
  rewrite !app_length in *. simpl length in *.
  apply wp_bind. reshape ((pre ++ map Val u ++ map Val v) ++ Val x0 :: map Val (y :: l2) ++ post ++ repeat Raw (snd b)). apply wp_get_at. { lens. }
  apply wp_bind. reshape ((pre ++ map Val u ++ map Val (v ++ [x0])) ++ map Val (y :: l2) ++ post ++ repeat Raw (snd b)).
  apply (gallop_left_wp comp proj ord HORD); auto; try (lens; fail). intros p q EQ Hpq.
  assert (ord -> forall z w, In z (u ++ v ++ [x0]) -> In w q -> le z w) as HV.
  { intros Ho z w Hz Hw. specialize (S1 Ho). rewrite app_assoc in Hz, S1. destruct (Hpq Ho (S2 Ho)) as [_ U]. specialize (U w Hw).
    apply in_app_or in Hz as [Hz|[<-|[]]]; auto. apply sorted_app in S1 as (_ & _ & S1). apply (le_trans lt (HORD Ho)) with x0; auto. apply S1; simpl; auto. }
  destruct (Nat.eqb_spec (length p) 0) as [E0|E0].
  { destruct p; [|discriminate]. simpl in EQ. subst q. apply wp_ret.
    replace ((pre ++ map Val u ++ map Val (v ++ [x0])) ++ map Val (y :: l2) ++ post ++ repeat Raw (snd b)) with (pre ++ map Val ((u ++ v ++ [x0]) ++ y :: l2) ++ post ++ repeat Raw (snd b)) by solve_app.
    apply HQ; [|rewrite !app_length; simpl; auto]. split; [apply st_refl|]. intros Ho. apply sorted_app. cj; auto. }
  destruct p as [|y' p]; [destruct E0; auto|]. simpl in EQ. injection EQ as <- ->.
  assert (merged comp proj ord (pre ++ map Val u) (map Val q ++ post) (v ++ [x0]) (y :: p) Q) as HQ2.
  { intros ys mg' b' [HR HS] HB'. replace ((pre ++ map Val u) ++ map Val ys ++ (map Val q ++ post) ++ repeat Raw (snd b')) with (pre ++ map Val (u ++ ys ++ q) ++ post ++ repeat Raw (snd b')) by solve_app.
    apply HQ.
    - split.
      + replace ((u ++ v ++ [x0]) ++ y :: p ++ q) with (u ++ ((v ++ [x0]) ++ y :: p) ++ q) by solve_app. apply st_mid; auto.
      + intros Ho. specialize (HS Ho). assert (forall z, In z ys -> In z ((v ++ [x0]) ++ y :: p)) as HI. { intros z Hz. eapply Permutation_in; [|exact Hz]. symmetry. apply (st_perm _ _ _ _ HR). }
        specialize (S1 Ho). specialize (S2 Ho). rewrite app_comm_cons in S2. apply sorted_app in S2 as (S2a & S2b & S2c). apply sorted_app in S1 as (S1a & S1b & S1c).
        apply sorted_app. cj; auto.
        * apply sorted_app. cj; auto. intros z w Hz Hw. apply HI, in_app_or in Hz as [Hz|Hz]; auto. apply HV; auto. apply in_app_iff; auto.
        * intros z w Hz Hw. apply in_app_or in Hw as [Hw|Hw]; [|apply HU; auto; right; apply in_app_iff; auto].
          apply HI, in_app_or in Hw as [Hw|Hw]; auto. apply HU; auto. rewrite app_comm_cons. apply in_app_iff; auto.
    - replace (length pre + length (u ++ v ++ [x0]) + length (y :: p ++ q) + length post) with (length (pre ++ map Val u) + length (v ++ [x0]) + length (y :: p) + length (map (@Val A) q ++ post)) by lens. auto. }
  assert (bufok (length (pre ++ map Val u) + length (v ++ [x0]) + length (y :: p) + length (map (@Val A) q ++ post)) b) as HB2.
  { replace (length (pre ++ map Val u) + length (v ++ [x0]) + length (y :: p) + length (map (@Val A) q ++ post)) with (length pre + (length u + (length v + 1)) + S (length (p ++ q)) + length post) by lens. auto. }
  reshape ((pre ++ map Val u) ++ map Val (v ++ [x0]) ++ map Val (y :: p) ++ (map Val q ++ post) ++ repeat Raw (snd b)).
  assert (ord -> sorted lt (v ++ [x0])) as T1. { intros Ho. specialize (S1 Ho). apply sorted_app in S1; tauto. }
  assert (ord -> sorted lt (y :: p)) as T2. { intros Ho. specialize (S2 Ho). rewrite app_comm_cons in S2. apply sorted_app in S2; tauto. }
  assert (ord -> forall x, In x (v ++ [x0]) -> lt y x = true) as T3. { intros Ho x Hx. apply Huv; auto. }
  assert (ord -> forall z, In z (y :: p) -> lt z x0 = true) as T4. { intros Ho x Hx. apply Hpq; auto. }
  destruct (_ <=? _); [eapply merge_lo_wp|eapply merge_hi_wp]; try reflexivity; try eassumption; auto; lens.
Qed.
End Merge.
