(** The merges of detail/fixed_size_list.h. *)
From Coq Require Import List Arith Lia Permutation Bool.
From Verif Require Import Spec.Order Lang.Mem Proofs.Wp Proofs.OrderLib Model.Indirect Proofs.Indirect Model.Select Proofs.Select Model.FixedList Model.Mel
  Proofs.FixedList Proofs.ListPath.
Import ListNotations.
Local Arguments nth_error : simpl never.
Local Arguments upd : simpl never.
Local Arguments Nat.mul : simpl never.

Section Reads.
Context {A V : Type}.
Implicit Types ns : list (list_node V).

Lemma rd_node : forall ns i (Q : list_node V -> mem A -> Prop) m, i < length ns -> (forall n, next n = nxt ns i -> prev n = prv ns i -> value n = vl ns i -> Q n m) -> wp (rd ns i) Q m.
Proof. intros ns i Q m Hi HQ. destruct (nth_some _ ns i Hi) as (n & E). eapply wp_rd; eauto. apply HQ; unfold nxt, prv, vl; now rewrite E. Qed.

Lemma list_is_empty_wp : forall (p : node_pool V) s ids (Q : bool -> mem A -> Prop) m, fwd (nodes p) (s :: ids ++ [s]) -> ~ In s ids -> s < length (nodes p) ->
  Q (match ids with [] => true | _ => false end) m -> wp (list_is_empty p s) Q m.
Proof.
  intros p s ids Q m HF HN HB HQ. unfold list_is_empty. apply wp_bind. apply rd_node; auto. intros n E1 _ _. apply wp_bind. eapply wp_pointee. { rewrite E1. apply (fwd_nx0 _ _ _ _ HF). }
  apply wp_ret. destruct ids as [|x ids]; simpl. { now rewrite Nat.eqb_refl. } destruct (Nat.eqb_spec x s) as [->|]; auto. destruct HN. now left.
Qed.

Lemma fast_splice_wp : forall ns pos first last before y (Q : list (list_node V) -> mem A -> Prop) m,
  prv ns pos = Some before -> prv ns last = Some y -> first <> last -> first <> pos -> last <> pos ->
  pos < length ns -> first < length ns -> last < length ns -> before < length ns -> y < length ns ->
  (forall ns', length ns' = length ns -> (forall j, vl ns' j = vl ns j) ->
    (forall j, nxt ns' j = if j =? y then Some pos else if j =? before then Some first else nxt ns j) ->
    (forall j, prv ns' j = if j =? pos then Some y else if j =? first then Some before else prv ns j) -> Q ns' m) ->
  wp (fast_splice ns pos first last) Q m.
Proof.
  intros ns pos first last before y Q m HP HY N1 N2 N3 B1 B2 B3 B4 B5 HQ. unfold fast_splice.
  apply wp_bind. apply wp_assert. { destruct (Nat.eqb_spec first last); auto. }
  apply wp_bind. apply rd_node; auto. intros n _ E _. apply wp_bind. eapply wp_pointee. { rewrite E. exact HP. }
  apply wp_bind. apply wp_set_next; auto. intros ns1 L1 X1 P1 V1.
  apply wp_bind. apply rd_node; [lia|]. intros n1 _ E1 _. rewrite E1, P1, HP.
  apply wp_bind. apply wp_set_prev; [lia|]. intros ns2 L2 P2 X2 V2.
  apply wp_bind. apply rd_node; [lia|]. intros n2 _ E2 _. rewrite E2, P2, P1. destruct (Nat.eqb_spec last first); [congruence|]. rewrite HY.
  apply wp_bind. apply wp_set_prev; [lia|]. intros ns3 L3 P3 X3 V3.
  apply wp_bind. apply rd_node; [lia|]. intros n3 _ E3 _. apply wp_bind. eapply wp_pointee.
  { rewrite E3, P3, P2, P1. destruct (Nat.eqb_spec last pos); [congruence|]. destruct (Nat.eqb_spec last first); [congruence|]. exact HY. }
  apply wp_set_next; [lia|]. intros ns4 L4 X4 P4 V4. apply HQ; [lia| | |].
  - intros j. now rewrite V4, V3, V2, V1.
  - intros j. now rewrite X4, X3, X2, X1.
  - intros j. now rewrite P4, P3, P2, P1.
Qed.

Lemma reset_sentinel_wp : forall (p : node_pool A) o (Q : node_pool A -> mem A -> Prop) m, o < length (nodes p) ->
  (forall p', length (nodes p') = length (nodes p) -> capacity p' = capacity p -> first_free p' = first_free p -> (forall j, vl (nodes p') j = vl (nodes p) j) ->
    chain (nodes p') o [] -> (forall j, j <> o -> nxt (nodes p') j = nxt (nodes p) j /\ prv (nodes p') j = prv (nodes p) j) -> Q p' m) ->
  wp (reset_sentinel p o) Q m.
Proof.
  intros p o Q m Ho HQ. unfold reset_sentinel. apply wp_bind. apply wp_set_next; auto. intros ns1 L1 X1 P1 V1. apply wp_bind. apply wp_set_prev; [lia|]. intros ns2 L2 P2 X2 V2.
  apply wp_ret. apply HQ; cbn [nodes with_nodes capacity first_free]; auto; [lia| | |].
  - intros j. now rewrite V2, V1.
  - apply chain_path. split; [|split].
    + constructor; auto. constructor.
    + intros x [<-|[]]. lia.
    + split; [|exact I]. rewrite X2, X1, P2, Nat.eqb_refl. auto.
  - intros j Hj. rewrite X2, X1, P2, P1. destruct (Nat.eqb_spec j o); [congruence|]. auto.
Qed.
End Reads.

Section Merge.
Context {A T : Type} (comp : T -> T -> bool) (proj : A -> T) (v : nat -> A).
Local Notation ltn := (fun x y => comp (proj (v x)) (proj (v y))).

Lemma node_less_wp : forall (p : node_pool A) x y (Q : bool -> mem A -> Prop) m, vl (nodes p) x = Val (v x) -> vl (nodes p) y = Val (v y) -> Q (ltn x y) m ->
  wp (node_less comp proj p x y) Q m.
Proof. intros p x y Q m H1 H2 HQ. unfold node_less. apply wp_bind. eapply wp_list_deref; eauto. apply wp_bind. eapply wp_list_deref; eauto. Qed.

(** The nodes that are less than [first], at the beginning of a list. *)
Lemma run_end_wp : forall (p : node_pool A) first x orest o (Q : nat * nat -> mem A -> Prop) m, fwd (nodes p) ((x :: orest) ++ [o]) -> ~ In o (x :: orest) ->
  length (x :: orest) <= length (nodes p) ->
  (forall y, In y (x :: orest) -> vl (nodes p) y = Val (v y)) -> vl (nodes p) first = Val (v first) -> ltn x first = true ->
  (forall run y rest, x :: orest = run ++ y :: rest -> hd y run = x -> Forall (fun z => ltn z first = true) (run ++ [y]) -> (forall z t, rest = z :: t -> ltn z first = false) ->
     Q (y, fst_or o rest) m) ->
  wp (run_end comp proj p first x o) Q m.
Proof.
  intros p first x orest o Q m HF HN HL HV HVF Hx HQ. unfold run_end.
  apply wp_loop_k with (k := length orest) (I := fun k cur m' => m' = m /\ exists run rest, x :: orest = run ++ cur :: rest /\ k = length rest /\ Forall (fun z => ltn z first = true) (run ++ [cur])).
  - split; auto. exists [], orest. cj; auto. constructor; auto.
  - simpl in HL. lia.
  - intros k cur m' (-> & run & rest & E & -> & HA).
    assert (HNX : nxt (nodes p) cur = Some (fst_or o rest)).
    { rewrite E, <- app_assoc in HF. simpl in HF. rewrite cut_after in HF. apply linked_at in HF. exact HF. }
    assert (Hhd : hd cur run = x). { destruct run; simpl in *; congruence. }
    apply wp_bind. eapply wp_list_next; eauto. destruct rest as [|z rest].
    + simpl. rewrite Nat.eqb_refl. apply wp_ret. apply (HQ run cur []); auto. discriminate.
    + unfold fst_or. simpl hd. destruct (Nat.eqb_spec z o) as [->|Hz].
      { destruct HN. rewrite E. apply in_or_app. right. right. now left. }
      apply wp_bind. apply node_less_wp; auto. { apply HV. rewrite E. apply in_or_app. right. right. now left. }
      destruct (ltn z first) eqn:EZ; apply wp_ret.
      * exists (length rest). split; [simpl; lia|]. split; auto. exists (run ++ [cur]), rest. rewrite <- app_assoc. cj; auto. apply Forall_app. split; auto.
      * apply (HQ run cur (z :: rest)); auto. intros z' t E'. congruence.
Qed.

Lemma merge_run : forall first rest run orest, Forall (fun z => ltn z first = true) run ->
  merge ltn (first :: rest) (run ++ orest) = run ++ merge ltn (first :: rest) orest.
Proof. induction run as [|x run IH]; intros orest H; auto. apply Forall_cons_iff in H as [H1 H2]. cbn [app]. rewrite merge_cons. cbv beta. rewrite H1. f_equal. auto. Qed.

Lemma lst_or_app : forall s l x, lst_or s (l ++ [x]) = x.
Proof. intros. apply last_last. Qed.
Lemma removelast_tail : forall (b : nat) l s, removelast (b :: l ++ [s]) = b :: l.
Proof. intros. change (b :: l ++ [s]) with ((b :: l) ++ [s]). apply removelast_last. Qed.

(** [run ++ [y]] is spliced before [rest]. *)
Lemma splice_path : forall (ns ns' : list (list_node A)) s don rest run y x more, path ns (s :: don ++ rest ++ [s]) -> path ns (run ++ y :: more) -> hd y run = x ->
  (forall j, nxt ns' j = if j =? y then Some (fst_or s rest) else if j =? lst_or s don then Some x else nxt ns j) ->
  (forall j, prv ns' j = if j =? fst_or s rest then Some y else if j =? x then Some (lst_or s don) else prv ns j) ->
  NoDup (s :: don ++ run ++ y :: rest) -> path ns' (s :: don ++ (run ++ [y]) ++ rest ++ [s]).
Proof.
  intros ns ns' s don rest run y x more H1 H2 Hx HN HP ND.
  rewrite (cut_after s rest) in H1 |- *.
  change (s :: don ++ ?z) with ((s :: don) ++ z) in *. rewrite (cut_before s don) in H1 |- *. rewrite <- app_assoc in H1. rewrite <- app_assoc.
  set (l1 := removelast (s :: don)) in *. set (l2 := tl (rest ++ [s])) in *. set (a := lst_or s don) in *. set (b := fst_or s rest) in *.
  assert (E1 : l1 ++ [a] = s :: don) by (symmetry; apply cut_before). assert (E2 : b :: l2 = rest ++ [s]) by (symmetry; apply cut_after).
  change ([a] ++ ?z) with (a :: z) in *. 
  apply linked_app in H1 as [K1 K2]. 
  apply path_splice with (ns := ns) (x := x) (y := y); auto.
  - apply K2.
  - change (run ++ y :: more) with (run ++ [y] ++ more) in H2. rewrite app_assoc in H2. apply linked_split in H2. apply H2.
  - destruct run; simpl in *; congruence.
  - now rewrite removelast_last.
  - rewrite E2, removelast_last. change (a :: ?z) with ([a] ++ z). rewrite app_assoc, E1. simpl. rewrite <- app_assoc. exact ND.
  - rewrite E1, E2. simpl tl. apply NoDup_cnt. intros j. nodup ND j.
Qed.

Definition frame_out {V} (ns ns' : list (list_node V)) (l : list nat) : Prop :=
  forall j, ~ In j l -> nxt ns' j = nxt ns j /\ prv ns' j = prv ns j.

Lemma nodup_bound : forall (l : list nat) n, NoDup l -> (forall x, In x l -> x < n) -> length l <= n.
Proof. intros l n ND H. assert (incl l (seq 0 n)) as HI. { intros x Hx. apply in_seq. specialize (H x Hx). lia. } apply NoDup_incl_length in HI; auto. now rewrite seq_length in HI. Qed.

Lemma merge_lists_wp : forall (p : node_pool A) s ids o oids (Q : node_pool A -> mem A -> Prop) m, chain (nodes p) s ids -> chain (nodes p) o oids ->
  NoDup (s :: o :: ids ++ oids) -> ids <> [] -> oids <> [] -> (forall x, In x (ids ++ oids) -> vl (nodes p) x = Val (v x)) ->
  (forall p', length (nodes p') = length (nodes p) -> capacity p' = capacity p -> first_free p' = first_free p -> (forall j, vl (nodes p') j = vl (nodes p) j) ->
     chain (nodes p') s (merge ltn ids oids) -> chain (nodes p') o [] -> frame_out (nodes p) (nodes p') (s :: o :: ids ++ oids) -> Q p' m) ->
  wp (merge_lists comp proj p s o) Q m.
Proof.
  intros p s ids o oids Q m HC HO ND Hids Hoids HV HQ. unfold merge_lists.
  apply chain_path in HC as (_ & B1 & P1). apply chain_path in HO as (_ & B2 & P2).
  assert (HB : forall x, In x (s :: o :: ids ++ oids) -> x < length (nodes p)).
  { intros x [<-|[<-|H]]; [apply B1; now left|apply B2; now left|]. apply in_app_or in H as [H|H]; [apply B1|apply B2]; now right. }
  assert (HLE := nodup_bound _ _ ND HB).
  apply wp_bind. unfold list_begin. eapply wp_list_next. { apply (fwd_nx0 _ _ _ _ (path_fwd _ _ P1)). }
  destruct (Nat.eqb_spec (fst_or s ids) s) as [E|_]. { destruct ids as [|i ids]; [congruence|]. simpl in E. subst. nodup ND s. }
  apply wp_bind. eapply list_is_empty_wp; [apply path_fwd; exact P2| | |]. { intros H. nodup ND o. } { apply B2. now left. }
  destruct oids as [|oi oids]; [congruence|]. apply wp_bind. eapply wp_list_next. { apply (fwd_nx0 _ _ _ _ (path_fwd _ _ P2)). }
  set (oids0 := oi :: oids) in *. apply wp_bind.
  apply wp_loop_k with (k := length ids + length oids0) (I := fun k '(first, other_it, p1) m' => m' = m /\ exists don rest orest,
     rest <> [] /\ orest <> [] /\ k = length rest + length orest /\ first = fst_or s rest /\ other_it = fst_or o orest /\
     length (nodes p1) = length (nodes p) /\ capacity p1 = capacity p /\ first_free p1 = first_free p /\ (forall j, vl (nodes p1) j = vl (nodes p) j) /\
     path (nodes p1) (s :: don ++ rest ++ [s]) /\ path (nodes p1) (orest ++ [o]) /\ frame_out (nodes p) (nodes p1) (s :: o :: ids ++ oids0) /\
     Permutation (don ++ rest ++ orest) (ids ++ oids0) /\ merge ltn ids oids0 = don ++ merge ltn rest orest).
  { split; auto. exists [], ids, oids0. cj; auto; try discriminate.
    - change (o :: oids0 ++ [o]) with ([o] ++ (oids0 ++ [o])) in P2. apply linked_split in P2. apply P2.
    - intros j _. auto. }
  { simpl length in HLE. rewrite app_length in HLE. lia. }
  intros k [[first other_it] p1] m' (-> & don & rest & orest & Hr & Hor & -> & -> & -> & L1 & C1 & F1 & V1 & PA & PB & FR & PE & ME).
  destruct rest as [|f rest]; [congruence|]. destruct orest as [|x orest]; [congruence|]. unfold fst_or. simpl hd. cbv beta.
  assert (NDX : NoDup (s :: o :: don ++ (f :: rest) ++ x :: orest)).
  { eapply Permutation_NoDup; [|exact ND]. apply perm_skip, perm_skip. apply Permutation_sym. exact PE. }
  assert (HIN : forall z, In z (don ++ (f :: rest) ++ x :: orest) -> In z (ids ++ oids0)) by (intros z; apply Permutation_in; auto).
  assert (HINS : forall z, In z (s :: o :: don ++ (f :: rest) ++ x :: orest) -> In z (s :: o :: ids ++ oids0)).
  { intros z [->|[->|H]]; [now left|right; now left|right; right; auto]. }
  assert (HBX : forall z, In z (s :: o :: don ++ (f :: rest) ++ x :: orest) -> z < length (nodes p1)). { intros z Hz. rewrite L1. auto. }
  assert (HVX : forall z, In z (don ++ (f :: rest) ++ x :: orest) -> vl (nodes p1) z = Val (v z)). { intros z Hz. rewrite V1. auto. }
  assert (Inf : In f (don ++ (f :: rest) ++ x :: orest)) by (apply in_or_app; right; now left).
  assert (Inx : In x (don ++ (f :: rest) ++ x :: orest)) by (apply in_or_app; right; apply in_or_app; right; now left).
  apply wp_bind. apply node_less_wp; auto.
  assert (FIN : forall p2 don', length (nodes p2) = length (nodes p1) -> capacity p2 = capacity p1 -> first_free p2 = first_free p1 -> (forall j, vl (nodes p2) j = vl (nodes p1) j) ->
     path (nodes p2) (s :: don' ++ [s]) -> frame_out (nodes p1) (nodes p2) (s :: o :: don ++ (f :: rest) ++ x :: orest) -> don' = merge ltn ids oids0 ->
     wp (reset_sentinel p2 o) Q m).
  { intros p2 don' L2 C2 F2 V2 PA2 FR2 E2. assert (Permutation don' (ids ++ oids0)) as PE2. { rewrite E2. apply Permutation_sym, merge_perm. }
    apply reset_sentinel_wp. { rewrite L2, L1. apply HB. right. now left. }
    intros p3 L3 C3 F3 V3 CH3 FR3. apply HQ; try lia; try congruence; auto.
    - rewrite <- E2. apply chain_path. assert (NoDup (s :: o :: don')) as ND2. { eapply Permutation_NoDup; [|exact ND]. apply perm_skip, perm_skip. apply Permutation_sym. exact PE2. }
      split; [|split].
      + apply NoDup_cnt. intros j. nodup ND2 j.
      + intros z [<-|Hz]; rewrite L3, L2, L1; apply HB; [now left|]. right. right. eapply Permutation_in; eauto.
      + eapply path_frame; [exact PA2| |].
        * change (s :: don' ++ [s]) with ((s :: don') ++ [s]). rewrite removelast_last. intros z Hz. apply FR3. intros ->. nodup ND2 o.
        * simpl tl. intros z Hz. apply FR3. intros ->. nodup ND2 o.
    - intros j Hj. assert (j <> o) as Hjo. { intros ->. apply Hj. right. now left. } destruct (FR3 j Hjo) as [-> ->]. destruct (FR2 j) as [-> ->]; auto. }
  destruct (ltn x f) eqn:EX.
  - apply wp_bind, wp_bind. apply run_end_wp with (orest := orest); auto.
    { apply path_fwd. exact PB. } { intros H. nodup NDX o. }
    { apply Permutation_length in PE. rewrite !app_length in PE. simpl length in *. rewrite app_length in HLE.
      unfold oids0 in HLE; simpl length in HLE; lia. }
    { intros y Hy. apply HVX. apply in_or_app. right. apply in_or_app. right. exact Hy. }
    intros run y orest' E Ehd HA HT. cbv beta.
    assert (Hxo : x <> o) by (intros ->; nodup NDX o). assert (Hxf : x <> f) by (intros ->; nodup NDX f).
    assert (Hxr : In x (run ++ [y])). { rewrite <- Ehd. destruct run; now left. }
    rewrite E in *. assert (PB' := PB). rewrite <- app_assoc in PB'. simpl app in PB'. rewrite cut_after in PB'. apply linked_at in PB' as [_ PB'].
    apply wp_bind. eapply fast_splice_wp with (before := lst_or s don) (y := y); auto.
    { pose proof (path_prev _ _ _ _ PA) as HH. simpl in HH. exact HH. }
    { intros E'. destruct orest' as [|z orest']; simpl in E'; [auto|]. rewrite E' in *. nodup NDX z. }
    { intros E'. destruct orest' as [|z orest']; simpl in E'; rewrite E' in *; nodup NDX f. }
    { apply HBX. right. right. apply in_or_app. right. now left. }
    { apply HBX. right. right. rewrite <- E. apply in_or_app. right. apply in_or_app. right. now left. }
    { apply HBX. destruct orest'; simpl. { right. now left. } right. right. apply in_or_app. right. right. apply in_or_app. right. apply in_or_app. right. right. now left. }
    { apply HBX. pose proof (lst_or_in s don) as [<-|H]; [now left|]. right. right. apply in_or_app. now left. }
    { apply HBX. right. right. apply in_or_app. right. apply in_or_app. right. apply in_or_app. right. now left. }
    intros ns2 L2 V2 X2 Y2. apply wp_ret. cbv beta iota. cbn [nodes with_nodes].
    destruct (Nat.eqb_spec f s) as [->|_]; [nodup NDX s|].
    assert (PA2 : path ns2 (s :: don ++ (run ++ [y]) ++ (f :: rest) ++ [s])).
    { eapply splice_path with (ns := nodes p1) (x := x) (more := orest' ++ [o]); eauto.
      - rewrite <- app_assoc in PB. exact PB.
      - apply NoDup_cnt. intros j. nodup NDX j. }
    assert (PB2 : path ns2 (orest' ++ [o])).
    { assert (path (nodes p1) (orest' ++ [o])) as PB3. { rewrite <- app_assoc in PB. apply linked_split in PB as [_ PB]. change (y :: orest') with ([y] ++ orest') in PB. rewrite <- app_assoc in PB. apply linked_split in PB as [_ PB]. exact PB. }
      eapply path_frame; [exact PB3| |].
      - rewrite removelast_last. intros j Hj. rewrite X2. destruct (Nat.eqb_spec j y) as [->|]; [nodup NDX y|]. destruct (Nat.eqb_spec j (lst_or s don)) as [->|]; auto.
        pose proof (lst_or_in s don) as HI. exfalso. set (q := lst_or s don) in *. clearbody q. nodup NDX q.
      - intros j Hj. rewrite Y2. unfold fst_or. simpl hd.
        assert (In j (tl (orest' ++ [o])) -> cnt orest' j <= 1 /\ (1 <= cnt orest' j \/ j = o)) as HT2.
        { intros _. destruct orest' as [|z orest']; simpl in Hj; [tauto|]. split. { nodup NDX j. } apply in_app_or in Hj as [Hj|[Hj|[]]]; [left|right; auto]. cnt_norm. lia. }
        specialize (HT2 Hj) as [_ HT2]. destruct (Nat.eqb_spec j f) as [->|]. { destruct HT2 as [?| ->]; [nodup NDX f|nodup NDX o]. }
        destruct (Nat.eqb_spec j x) as [->|]; auto. exfalso. destruct HT2 as [?| HT2]; [|auto]. nodup NDX x. }
    assert (FR2 : frame_out (nodes p1) ns2 (s :: o :: don ++ (f :: rest) ++ run ++ y :: orest')).
    { intros j Hj. rewrite X2, Y2. destruct (Nat.eqb_spec j y) as [->|]. { destruct Hj. right. right. apply in_or_app. right. apply in_or_app. right. apply in_or_app. right. now left. }
      destruct (Nat.eqb_spec j (lst_or s don)) as [->|]. { destruct Hj. pose proof (lst_or_in s don) as [H|H]; [left; auto|]. right. right. apply in_or_app. auto. }
      destruct (Nat.eqb_spec j f) as [->|]. { destruct Hj. right. right. exact Inf. }
      destruct (Nat.eqb_spec j x) as [->|]; auto. destruct Hj. right. right. exact Inx. }
    assert (ME2 : merge ltn ids oids0 = (don ++ run ++ [y]) ++ merge ltn (f :: rest) orest').
    { rewrite ME. change (run ++ y :: orest') with (run ++ [y] ++ orest'). rewrite (app_assoc run). rewrite merge_run by exact HA. now rewrite <- !app_assoc. }
    destruct orest' as [|z orest'].
    + unfold fst_or. simpl hd. rewrite Nat.eqb_refl. apply wp_ret. apply FIN with (don' := don ++ (run ++ [y]) ++ f :: rest); auto.
      * cbn [nodes with_nodes]. rewrite <- !app_assoc in *. exact PA2.
      * rewrite ME2. rewrite merge_nil_r. now rewrite <- !app_assoc.
    + unfold fst_or. simpl hd. destruct (Nat.eqb_spec z o) as [->|_]; [nodup NDX o|]. apply wp_ret.
      exists (length (f :: rest) + length (z :: orest')). split. { rewrite app_length. simpl length. lia. }
      split; auto. exists (don ++ run ++ [y]), (f :: rest), (z :: orest'). cbn [nodes with_nodes capacity first_free]. cj; auto; try discriminate; try lia.
      * intros j. rewrite V2. auto.
      * rewrite <- !app_assoc in *. exact PA2.
      * intros j Hj. destruct (FR2 j) as [-> ->]; auto.
      * eapply Permutation_trans; [|exact PE]. apply Permutation_count_occ with (eq_dec := Nat.eq_dec). intros j. fold (cnt ((don ++ run ++ [y]) ++ (f :: rest) ++ z :: orest') j). fold (cnt (don ++ (f :: rest) ++ run ++ y :: z :: orest') j).
        cnt_norm. lia.
  - apply wp_bind. apply wp_bind. eapply wp_list_next. { apply path_fwd in PA. simpl app in PA. eapply fwd_nx. exact PA. }
    apply wp_ret. cbv beta iota.
    assert (ME2 : merge ltn ids oids0 = (don ++ [f]) ++ merge ltn rest (x :: orest)). { rewrite ME, merge_cons. cbv beta. rewrite EX. now rewrite <- app_assoc. }
    assert (PA2 : path (nodes p1) (s :: (don ++ [f]) ++ rest ++ [s])). { rewrite <- app_assoc. exact PA. }
    destruct rest as [|f' rest].
    + unfold fst_or. simpl hd. rewrite Nat.eqb_refl.
      destruct (exists_last (l := x :: orest) ltac:(discriminate)) as (run & y & E). rewrite E in *.
      assert (hd y run = x) as Ehd. { destruct run; simpl in *; congruence. }
      assert (PB' := PB). rewrite <- app_assoc in PB'. simpl app in PB'. apply linked_at in PB' as [_ PB'].
      apply wp_bind. eapply fast_splice_wp with (before := f) (y := y); auto.
      { pose proof (path_prev _ s (don ++ [f]) [] PA2) as HH. rewrite lst_or_app in HH. exact HH. }
      { intros ->. rewrite <- E in *. nodup NDX o. } { intros ->. rewrite <- E in *. nodup NDX s. } { intros ->. nodup NDX s. }
      { apply HBX. now left. } { apply HBX. right. right. exact Inx. } { apply HBX. right. now left. } { apply HBX. right. right. exact Inf. } { apply HBX. right. right. apply in_or_app. right. apply in_or_app. right. apply in_or_app. right. now left. }
      intros ns2 L2 V2 X2 Y2. apply wp_ret. apply FIN with (don' := (don ++ [f]) ++ run ++ [y]); auto.
      * cbn [nodes with_nodes]. rewrite <- app_assoc. change [s] with ([] ++ [s]).
        eapply splice_path with (ns := nodes p1) (x := x) (more := [o]) (rest := []); eauto.
        -- rewrite <- app_assoc in PB. exact PB.
        -- rewrite lst_or_app. exact X2.
        -- rewrite lst_or_app. exact Y2.
        -- apply NoDup_cnt. intros j. nodup NDX j.
      * cbn [nodes with_nodes]. intros j Hj. rewrite X2, Y2. destruct (Nat.eqb_spec j y) as [->|]. { destruct Hj. right. right. rewrite !in_app_iff. simpl. auto. }
        destruct (Nat.eqb_spec j f) as [->|]. { destruct Hj. right. right. exact Inf. }
        destruct (Nat.eqb_spec j s) as [->|]. { destruct Hj. now left. }
        destruct (Nat.eqb_spec j x) as [->|]; auto. destruct Hj. right. right. exact Inx.
      * rewrite ME2, merge_nil_l. reflexivity.
    + unfold fst_or. simpl hd. destruct (Nat.eqb_spec f' s) as [->|_]; [nodup NDX s|]. destruct (Nat.eqb_spec x o) as [->|_]; [nodup NDX o|]. apply wp_ret.
      exists (length (f' :: rest) + length (x :: orest)). split; [simpl length; lia|]. split; auto. exists (don ++ [f]), (f' :: rest), (x :: orest). cj; auto; try discriminate.
      rewrite <- app_assoc. exact PE.
Qed.

Lemma splice_fwd : forall (ns ns' : list (list_node A)) s don rest run y x more, fwd ns (s :: don ++ rest ++ [s]) -> fwd ns (run ++ y :: more) -> hd y run = x ->
  (forall j, nxt ns' j = if j =? y then Some (fst_or s rest) else if j =? lst_or s don then Some x else nxt ns j) ->
  NoDup (s :: don ++ run ++ y :: rest) -> fwd ns' (s :: don ++ (run ++ [y]) ++ rest ++ [s]).
Proof.
  intros ns ns' s don rest run y x more H1 H2 Hx HN ND.
  rewrite (cut_after s rest) in H1 |- *.
  change (s :: don ++ ?z) with ((s :: don) ++ z) in *. rewrite (cut_before s don) in H1 |- *. rewrite <- app_assoc in H1. rewrite <- app_assoc.
  set (l1 := removelast (s :: don)) in *. set (l2 := tl (rest ++ [s])) in *. set (a := lst_or s don) in *. set (b := fst_or s rest) in *.
  assert (E1 : l1 ++ [a] = s :: don) by (symmetry; apply cut_before). assert (E2 : b :: l2 = rest ++ [s]) by (symmetry; apply cut_after).
  change ([a] ++ ?z) with (a :: z) in *.
  apply linked_app in H1 as [K1 K2].
  apply fwd_splice with (ns := ns) (x := x) (y := y); auto.
  - apply K2.
  - change (run ++ y :: more) with (run ++ [y] ++ more) in H2. rewrite app_assoc in H2. apply linked_split in H2. apply H2.
  - destruct run; simpl in *; congruence.
  - now rewrite removelast_last.
  - rewrite E2, removelast_last. change (a :: ?z) with ([a] ++ z). rewrite app_assoc, E1. simpl. rewrite <- app_assoc. exact ND.
Qed.

Lemma merge_lists_unsafe_wp : forall (p : node_pool A) s ids o oids (Q : node_pool A -> mem A -> Prop) m, chain (nodes p) s ids ->
  fwd (nodes p) (o :: oids ++ [o]) -> prv (nodes p) o = Some (lst_or o oids) -> (forall x, In x (o :: oids) -> x < length (nodes p)) ->
  NoDup (s :: o :: ids ++ oids) -> ids <> [] -> oids <> [] -> (forall x, In x (ids ++ oids) -> vl (nodes p) x = Val (v x)) ->
  (forall p', length (nodes p') = length (nodes p) -> capacity p' = capacity p -> first_free p' = first_free p -> (forall j, vl (nodes p') j = vl (nodes p) j) ->
     fwd (nodes p') (s :: merge ltn ids oids ++ [s]) -> prv (nodes p') s = Some (lst_or s ids) -> chain (nodes p') o [] ->
     frame_out (nodes p) (nodes p') (s :: o :: ids ++ oids) -> Q p' m) ->
  wp (merge_lists_unsafe comp proj p s o) Q m.
Proof.
  intros p s ids o oids Q m HC P2 HPO B2 ND Hids Hoids HV HQ. unfold merge_lists_unsafe.
  apply chain_path in HC as (_ & B1 & P1).
  assert (HB : forall x, In x (s :: o :: ids ++ oids) -> x < length (nodes p)).
  { intros x [<-|[<-|H]]; [apply B1; now left|apply B2; now left|]. apply in_app_or in H as [H|H]; [apply B1|apply B2]; now right. }
  assert (HLE := nodup_bound _ _ ND HB).
  apply wp_bind. eapply list_is_empty_wp; [apply path_fwd; exact P1| | |]. { intros H. nodup ND s. } { apply B1. now left. }
  destruct ids as [|i ids]; [congruence|]. set (ids0 := i :: ids) in *.
  apply wp_bind. eapply list_is_empty_wp; [exact P2| | |]. { intros H. nodup ND o. } { apply B2. now left. }
  destruct oids as [|oi oids]; [congruence|]. set (oids0 := oi :: oids) in *.
  apply wp_bind. unfold list_begin. eapply wp_list_next. { apply (fwd_nx0 _ _ _ _ (path_fwd _ _ P1)). }
  apply wp_bind. eapply wp_list_next. { apply (fwd_nx0 _ _ _ _ P2). } apply wp_bind.
  apply wp_loop_k with (k := length ids0 + length oids0) (I := fun k '(first, other_it, p1) m' => m' = m /\ exists d0 o0 don rest orest,
     ids0 = d0 ++ rest /\ oids0 = o0 ++ orest /\
     rest <> [] /\ k = length rest + length orest /\ first = fst_or s rest /\ other_it = fst_or o orest /\
     length (nodes p1) = length (nodes p) /\ capacity p1 = capacity p /\ first_free p1 = first_free p /\ (forall j, vl (nodes p1) j = vl (nodes p) j) /\
     (forall j, prv (nodes p1) j = prv (nodes p) j) /\
     fwd (nodes p1) (s :: don ++ rest ++ [s]) /\ fwd (nodes p1) (orest ++ [o]) /\ frame_out (nodes p) (nodes p1) (s :: o :: ids0 ++ oids0) /\
     Permutation (don ++ rest ++ orest) (ids0 ++ oids0) /\ merge ltn ids0 oids0 = don ++ merge ltn rest orest /\
     (lst_or s don = lst_or s d0 \/ (forall x t, orest = x :: t -> ltn x (fst_or s rest) = false))).
  { split; auto. exists [], [], [], ids0, oids0. cj; auto; try discriminate.
    - apply path_fwd. exact P1.
    - change (o :: oids0 ++ [o]) with ([o] ++ (oids0 ++ [o])) in P2. apply linked_split in P2. apply P2.
    - intros j _. auto. }
  { simpl length in HLE. rewrite app_length in HLE. unfold ids0, oids0 in *. simpl length in *. lia. }
  intros k [[first other_it] p1] m' (-> & d0 & o0 & don & rest & orest & EI & EO & Hr & -> & -> & -> & L1 & C1 & F1 & V1 & PV & PA & PB & FR & PE & ME & HD).
  destruct rest as [|f rest]; [congruence|]. unfold fst_or at 2. simpl hd. cbv beta.
  assert (NDX : NoDup (s :: o :: don ++ (f :: rest) ++ orest)).
  { eapply Permutation_NoDup; [|exact ND]. apply perm_skip, perm_skip. apply Permutation_sym. exact PE. }
  assert (HIN : forall z, In z (don ++ (f :: rest) ++ orest) -> In z (ids0 ++ oids0)) by (intros z; apply Permutation_in; auto).
  assert (HINS : forall z, In z (s :: o :: don ++ (f :: rest) ++ orest) -> In z (s :: o :: ids0 ++ oids0)).
  { intros z [->|[->|H]]; [now left|right; now left|right; right; auto]. }
  assert (HBX : forall z, In z (s :: o :: don ++ (f :: rest) ++ orest) -> z < length (nodes p1)). { intros z Hz. rewrite L1. auto. }
  assert (HVX : forall z, In z (don ++ (f :: rest) ++ orest) -> vl (nodes p1) z = Val (v z)). { intros z Hz. rewrite V1. auto. }
  assert (Inf : In f (don ++ (f :: rest) ++ orest)) by (apply in_or_app; right; now left).
  assert (FIN : forall p2 don', length (nodes p2) = length (nodes p1) -> capacity p2 = capacity p1 -> first_free p2 = first_free p1 -> (forall j, vl (nodes p2) j = vl (nodes p1) j) ->
     (forall j, prv (nodes p2) j = prv (nodes p1) j) -> fwd (nodes p2) (s :: don' ++ [s]) -> frame_out (nodes p1) (nodes p2) (s :: o :: don ++ (f :: rest) ++ orest) -> don' = merge ltn ids0 oids0 ->
     wp (reset_sentinel p2 o) Q m).
  { intros p2 don' L2 C2 F2 V2 PV2 PA2 FR2 E2. assert (Permutation don' (ids0 ++ oids0)) as PE2. { rewrite E2. apply Permutation_sym, merge_perm. }
    assert (NoDup (s :: o :: don')) as ND2. { eapply Permutation_NoDup; [|exact ND]. apply perm_skip, perm_skip. apply Permutation_sym. exact PE2. }
    apply reset_sentinel_wp. { rewrite L2, L1. apply HB. right. now left. }
    intros p3 L3 C3 F3 V3 CH3 FR3. apply HQ; try lia; try congruence; auto.
    - rewrite <- E2. eapply fwd_frame; [exact PA2|]. change (s :: don' ++ [s]) with ((s :: don') ++ [s]). rewrite removelast_last. intros z Hz. apply FR3. intros ->. nodup ND2 o.
    - assert (s <> o) as Hso by (intros ->; nodup ND2 o). destruct (FR3 s Hso) as [_ ->]. rewrite PV2, PV. apply (path_prev _ s ids0 []). exact P1.
    - intros j Hj. assert (j <> o) as Hjo. { intros ->. apply Hj. right. now left. } destruct (FR3 j Hjo) as [-> ->]. destruct (FR2 j) as [-> ->]; auto. }
  destruct orest as [|x orest].
  { unfold fst_or. simpl hd. rewrite Nat.eqb_refl. apply wp_ret. apply FIN with (don' := don ++ f :: rest); auto.
    - rewrite <- app_assoc. exact PA.
    - intros j _. auto. }
  unfold fst_or. simpl hd. destruct (Nat.eqb_spec x o) as [->|Hxo]; [nodup NDX o|].
  assert (Inx : In x (don ++ (f :: rest) ++ x :: orest)) by (apply in_or_app; right; apply in_or_app; right; now left).
  apply wp_bind. apply node_less_wp; auto.
  destruct (ltn x f) eqn:EX.
  - destruct HD as [HD|HD]. 2:{ exfalso. specialize (HD x orest eq_refl). simpl in HD. cbv beta in EX. congruence. }
    apply wp_bind, wp_bind. apply run_end_wp with (orest := orest); auto.
    { intros H. nodup NDX o. }
    { apply Permutation_length in PE. rewrite !app_length in PE. simpl length in *. rewrite app_length in HLE.
      unfold ids0, oids0 in *; simpl length in *; lia. }
    { intros y Hy. apply HVX. apply in_or_app. right. apply in_or_app. right. exact Hy. }
    intros run y orest' E Ehd HA HT. cbv beta. assert (Hxf : x <> f) by (intros ->; nodup NDX f).
    assert (Hxr : In x (run ++ [y])). { rewrite <- Ehd. destruct run; now left. }
    rewrite E in *. assert (Iny : In y (don ++ (f :: rest) ++ run ++ y :: orest')) by (rewrite !in_app_iff; simpl; auto).
    assert (HPF : prv (nodes p1) f = Some (lst_or s don)).
    { rewrite PV, HD. rewrite EI in P1. rewrite <- app_assoc in P1. apply path_prev in P1. exact P1. }
    apply wp_bind. apply rd_node. { apply HBX. right. now right. } intros n _ En _. apply wp_bind. eapply wp_pointee. { rewrite En. exact HPF. }
    apply wp_bind. apply wp_set_next. { apply HBX. pose proof (lst_or_in s don) as [<-|H]; [now left|]. right. right. apply in_or_app. now left. }
    intros ns1 LA X1 Y1 VA. apply wp_bind. apply wp_set_next. { rewrite LA. apply HBX. right. now right. } intros ns2 LB X2' Y2' VB. apply wp_ret.
    assert (X2 : forall j, nxt ns2 j = if j =? y then Some f else if j =? lst_or s don then Some x else nxt (nodes p1) j). { intros j. rewrite X2', X1. reflexivity. }
    cbn [nodes with_nodes]. destruct (Nat.eqb_spec f s) as [->|_]; [nodup NDX s|].
    apply wp_ret.
    exists (length (f :: rest) + length orest'). split. { rewrite app_length. simpl length. lia. }
    split; auto. exists d0, (o0 ++ run ++ [y]), (don ++ run ++ [y]), (f :: rest), orest'. cbn [nodes with_nodes capacity first_free]. cj; auto; try discriminate; try lia.
    + rewrite EO. now rewrite <- !app_assoc.
    + intros j. rewrite VB, VA. auto.
    + intros j. rewrite Y2', Y1. auto.
    + rewrite <- !app_assoc. rewrite (app_assoc run). eapply splice_fwd with (ns := nodes p1) (x := x) (more := orest' ++ [o]); eauto.
      * rewrite <- app_assoc in PB. exact PB.
      * apply NoDup_cnt. intros j. nodup NDX j.
    + assert (fwd (nodes p1) (orest' ++ [o])) as PB3. { rewrite <- app_assoc in PB. apply linked_split in PB as [_ PB]. change (y :: orest') with ([y] ++ orest') in PB. rewrite <- app_assoc in PB. apply linked_split in PB as [_ PB]. exact PB. }
      eapply fwd_frame; [exact PB3|].
      rewrite removelast_last. intros j Hj. rewrite X2. destruct (Nat.eqb_spec j y) as [->|]; [nodup NDX y|]. destruct (Nat.eqb_spec j (lst_or s don)) as [->|]; auto.
      pose proof (lst_or_in s don) as HI. exfalso. set (q := lst_or s don) in *. clearbody q. nodup NDX q.
    + intros j Hj. rewrite X2, Y2', Y1. destruct (Nat.eqb_spec j y) as [->|]. { destruct Hj. right. right. auto. }
      destruct (Nat.eqb_spec j (lst_or s don)) as [->|]. { destruct Hj. pose proof (lst_or_in s don) as [H|H]; [left; auto|]. right. right. apply HIN. apply in_or_app. auto. }
      auto.
    + eapply Permutation_trans; [|exact PE]. apply Permutation_count_occ with (eq_dec := Nat.eq_dec). intros j. change (cnt ((don ++ run ++ [y]) ++ (f :: rest) ++ orest') j = cnt (don ++ (f :: rest) ++ run ++ y :: orest') j).
      cnt_norm. lia.
    + rewrite ME. change (run ++ y :: orest') with (run ++ [y] ++ orest'). rewrite (app_assoc run). rewrite merge_run by exact HA. now rewrite <- !app_assoc.
  - apply wp_bind. apply wp_bind. eapply wp_list_next. { simpl app in PA. eapply fwd_nx. exact PA. }
    apply wp_ret. cbv beta iota.
    assert (ME2 : merge ltn ids0 oids0 = (don ++ [f]) ++ merge ltn rest (x :: orest)). { rewrite ME, merge_cons. cbv beta. rewrite EX. now rewrite <- app_assoc. }
    assert (PA2 : fwd (nodes p1) (s :: (don ++ [f]) ++ rest ++ [s])). { rewrite <- app_assoc. exact PA. }
    destruct rest as [|f' rest].
    + unfold fst_or. simpl hd. rewrite Nat.eqb_refl.
      destruct (exists_last (l := x :: orest) ltac:(discriminate)) as (run & y & E). rewrite E in *.
      assert (hd y run = x) as Ehd. { destruct run; simpl in *; congruence. }
      apply wp_bind. apply rd_node. { apply HBX. now left. } intros n _ En _. apply wp_bind. eapply wp_pointee.
      { rewrite En, PV. pose proof (path_prev _ s ids0 [] P1) as HH. simpl fst_or in HH. rewrite HH, EI, lst_or_app. reflexivity. }
      apply wp_bind. apply wp_set_next. { apply HBX. right. now right. } intros ns1 LA X1 Y1 VA.
      apply wp_bind. apply rd_node. { rewrite LA. apply HBX. right. now left. } intros n1 _ En1 _. apply wp_bind. eapply wp_pointee.
      { rewrite En1, Y1, PV, HPO, EO, app_assoc. unfold lst_or. rewrite last_last. reflexivity. }
      apply wp_bind. apply wp_set_next. { rewrite LA. apply HBX. right. right. rewrite !in_app_iff. simpl. auto. } intros ns2 LB X2' Y2' VB. apply wp_ret.
      apply FIN with (don' := (don ++ [f]) ++ run ++ [y]); cbn [nodes with_nodes capacity first_free]; auto; try lia.
      * intros j. now rewrite VB, VA.
      * intros j. now rewrite Y2', Y1.
      * rewrite <- app_assoc. change [s] with ([] ++ [s]).
        eapply splice_fwd with (ns := nodes p1) (x := x) (more := [o]) (rest := []); eauto.
        -- rewrite <- app_assoc in PB. exact PB.
        -- rewrite lst_or_app. intros j. rewrite X2', X1. reflexivity.
        -- apply NoDup_cnt. intros j. nodup NDX j.
      * intros j Hj. rewrite X2', X1, Y2', Y1. destruct (Nat.eqb_spec j y) as [->|]. { destruct Hj. right. right. rewrite !in_app_iff. simpl. auto. }
        destruct (Nat.eqb_spec j f) as [->|]; auto. destruct Hj. right. right. exact Inf.
      * rewrite ME2, merge_nil_l. reflexivity.
    + unfold fst_or. simpl hd. destruct (Nat.eqb_spec f' s) as [->|_]; [nodup NDX s|]. apply wp_ret.
      exists (length (f' :: rest) + length (x :: orest)). split; [simpl length; lia|]. split; auto. exists (d0 ++ [f]), o0, (don ++ [f]), (f' :: rest), (x :: orest). cj; auto; try discriminate.
      * rewrite EI, <- app_assoc. reflexivity.
      * rewrite <- app_assoc. exact PE.
      * left. now rewrite !lst_or_app.
Qed.
End Merge.
