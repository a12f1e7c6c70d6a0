(** Merge-insertion sort. *)
From Coq Require Import List Arith Lia Permutation Bool.
From Verif Require Import Spec.Order Lang.Mem Spec.Sorts Proofs.Wp Proofs.OrderLib Model.Basic Proofs.Basic Model.Rotate Proofs.Rotate
  Model.Search Model.Indirect Proofs.Indirect Proofs.Stable Proofs.DropMerge Model.Adapters Model.Select Proofs.Select Proofs.QuickMerge
  Model.FixedList Proofs.FixedList Model.MergeInsertion.
Import ListNotations.
Local Arguments nth_error : simpl never.
Local Arguments upd : simpl never.

Lemma destroy_range_seg : forall A (G L R : mem A) f l (Q : unit -> mem A -> Prop), Forall live G ->
  f = length L -> l = f + length G -> Q tt (L ++ repeat Raw (length G) ++ R) -> wp (destroy_range f l) Q (L ++ G ++ R).
Proof.
  intros A G L R f l Q HL -> -> HQ. unfold destroy_range.
  apply wp_loop' with (I := fun f m => exists a b, G = a ++ b /\ f = length L + length a /\ m = L ++ repeat Raw (length a) ++ b ++ R)
   (mu := fun f => length L + length G - f).
  - exists [], G. cj; auto; simpl; lia.
  - lia.
  - intros f m (a & b & -> & -> & ->). apply live_app in HL as [HL1 HL2]. rewrite app_length.
    destruct b as [|c b].
    + simpl. rewrite Nat.add_0_r, Nat.eqb_refl. apply wp_ret. rewrite app_nil_r in HQ. exact HQ.
    + destruct (Nat.eqb_spec (length L + length a) (length L + (length a + length (c :: b)))) as [E|E]; [simpl in E; lia|]. inversion HL2; subst.
      reshape ((L ++ repeat Raw (length a)) ++ c :: b ++ R). apply wp_bind, wp_destroy_at; auto. { lens. } apply wp_ret. split; [|simpl; lia].
      exists (a ++ [c]), b. cj; [solve_app|lens|]. rewrite app_length, repeat_app. simpl. solve_app.
Qed.

Lemma Forall2_app_l : forall X Y (R : X -> Y -> Prop) a b l, Forall2 R (a ++ b) l -> exists a' b', l = a' ++ b' /\ Forall2 R a a' /\ Forall2 R b b'.
Proof. intros. apply Forall2_app_inv_l in H as (a' & b' & H1 & H2 & ->). eauto. Qed.

Lemma Forall2_length : forall X Y (R : X -> Y -> Prop) l l', Forall2 R l l' -> length l = length l'.
Proof. induction 1; simpl; congruence. Qed.
Arguments Forall2_length {X Y R l l'}.
Lemma app_inj_len : forall X (a b c d : list X), a ++ b = c ++ d -> length a = length c -> a = c /\ b = d.
Proof. induction a as [|x a IH]; intros b [|y c] d E HL; simpl in *; try discriminate; auto. injection E as -> E. apply IH in E as [-> ->]; auto. Qed.
Lemma NoDup_app_intro : forall X (a b : list X), NoDup a -> NoDup b -> (forall x, In x a -> In x b -> False) -> NoDup (a ++ b).
Proof.
  induction a as [|x a IH]; simpl; intros b Ha Hb HD; auto. inversion Ha; subst. constructor.
  - rewrite in_app_iff. intros [H|H]; eauto.
  - apply IH; auto. intros y Hy. apply HD. auto.
Qed.
Section Chain.
Context {A T : Type} (comp : T -> T -> bool) (proj : A -> T) (ord : Prop).
Notation lt := (by_proj comp proj).
Notation le := (OrderLib.le lt).
Hypothesis HORD : ord -> strict_weak_order lt.

(** The node [x] of the chain is a group whose value is [a]. *)
Definition keyed (m : mem A) (gs : nat) (ns : list (list_node nat)) (x : nat) (a : A) : Prop :=
  exists b, vl ns x = Val b /\ nth_error m (b + (gs - 1)) = Some (Val a).

Lemma chain_upper_bound_wp : forall gs (p : node_pool nat) s l1 l2 keys v first last (Q : nat -> mem A -> Prop) m, chain (nodes p) s (l1 ++ l2) ->
  first = fst_or s (l1 ++ l2) -> last = fst_or s l2 -> Forall2 (keyed m gs (nodes p)) l1 keys ->
  (forall k1 k2 a1 a2, l1 = k1 ++ k2 -> keys = a1 ++ a2 -> length k1 = length a1 ->
     (ord -> sorted lt keys -> (forall a, In a a1 -> lt v a = false) /\ (forall a, In a a2 -> lt v a = true)) -> Q (fst_or s (k2 ++ l2)) m) ->
  wp (chain_upper_bound comp proj gs p first last (proj v)) Q m.
Proof.
  intros gs p s l1 l2 keys v first last Q m HC -> -> HK HQ. unfold chain_upper_bound. apply wp_bind. eapply list_distance_wp; eauto.
  apply wp_loop_k with (k := length l1) (I := fun k '(f, n) m' => m' = m /\ k = n /\ exists a b c ka kb kc, l1 = a ++ b ++ c /\ keys = ka ++ kb ++ kc /\
     Forall2 (keyed m gs (nodes p)) a ka /\ Forall2 (keyed m gs (nodes p)) b kb /\ Forall2 (keyed m gs (nodes p)) c kc /\ f = fst_or s (b ++ c ++ l2) /\ n = length b /\
     (ord -> sorted lt keys -> (forall x, In x ka -> lt v x = false) /\ (forall x, In x kc -> lt v x = true))).
  - cj; auto. exists [], l1, [], [], keys, []. rewrite !app_nil_r. cj; auto. intros _ _. split; intros x [].
  - lia.
  - intros k [f n] m' (-> & -> & a & b & c & ka & kb & kc & -> & -> & Ha & Hb & Hc & -> & -> & HO).
    destruct (Nat.ltb_spec 0 (length b)) as [Hn|Hn].
    2:{ apply wp_ret. destruct b; [|simpl in Hn; lia]. inversion Hb; subst. simpl app in *. apply (HQ a c ka kc); auto. eapply Forall2_length; eauto. }
    set (h := length b / 2). assert (Hh : h < length b) by (apply Nat.div_lt; lia).
    destruct (nth_split b 0 Hh) as (b1 & b2 & Eb & Lb). set (y := nth h b 0) in *. clearbody y. rewrite Eb in *.
    apply Forall2_app_l in Hb as (kb1 & kb2' & -> & Hb1 & Hb2). inversion Hb2 as [|? ky ? kb2 (base & V1 & V2) Hb2']; subst.
    apply wp_bind. eapply list_advance_wp with (a := a) (b := b1) (c := y :: b2 ++ c ++ l2).
    { rewrite <- !app_assoc in HC. exact HC. } { f_equal. rewrite <- app_assoc. reflexivity. } { lia. }
    unfold fst_or at 1. simpl hd. apply wp_bind. eapply wp_list_deref; eauto. apply wp_bind. eapply wp_get; eauto.
    unfold not_fn_flip. change (comp (proj v) (proj ky)) with (lt v ky).
    destruct (lt v ky) eqn:Ec; cbn [negb]; cbv iota.
    + apply wp_ret. exists (length b1). split. { rewrite app_length. simpl. lia. }
      split; auto. split; [lia|]. exists a, b1, (y :: b2 ++ c), ka, kb1, (ky :: kb2 ++ kc).
      cj; auto; try solve_app.
      * constructor; [exists base; auto|]. apply Forall2_app; auto.
      * intros Ho Hs. destruct (HO Ho Hs) as [O1 O2]. split; auto.
        intros x [<-|Hx]; auto. apply in_app_or in Hx as [Hx|Hx]; auto.
        apply (lt_le_trans lt (HORD Ho)) with (y := ky); auto. apply sorted_app in Hs as (_ & Hs & _). apply sorted_app in Hs as (Hs & _ & _).
        apply sorted_app in Hs as (_ & Hs & _). apply sorted_cons in Hs as [Hs _]. auto.
    + apply wp_bind. eapply wp_list_next. { eapply chain_next with (l1 := a ++ b1) (l2 := b2 ++ c ++ l2). rewrite <- !app_assoc in *. exact HC. }
      apply wp_ret. exists (length b2). split. { rewrite app_length. simpl. lia. }
      split; auto. split. { rewrite app_length in *. simpl in *. lia. }
      exists (a ++ b1 ++ [y]), b2, c, (ka ++ kb1 ++ [ky]), kb2, kc. cj; auto; try solve_app.
      * apply Forall2_app; auto. apply Forall2_app; auto. constructor; auto. exists base; auto.
      * rewrite app_length in *. simpl in *. lia.
      * intros Ho Hs. destruct (HO Ho Hs) as [O1 O2]. split; auto.
        intros x Hx. apply in_app_or in Hx as [Hx|Hx]; auto. apply in_app_or in Hx as [Hx|[<-|[]]]; auto.
        destruct (lt v x) eqn:Evx; auto. rewrite <- Ec. symmetry. apply (lt_le_trans lt (HORD Ho)) with (y := x); auto.
        apply sorted_app in Hs as (_ & Hs & _). apply sorted_app in Hs as (Hs & _ & _). apply sorted_app in Hs as (_ & _ & Hs). apply Hs; auto. now left.
Qed.

(** * One level: the groups of [gs] elements from [base] *)
Section Level.
Variables (gs base sz cap : nat) (key : nat -> A) (m : mem A).
Hypothesis Hgs : 0 < gs.
Hypothesis Hsz : sz <= cap.
Hypothesis Hm : forall j, j < sz -> nth_error m (base + j * gs + (gs - 1)) = Some (Val (key j)).

(** The group of a pend element. *)
Definition pg (k : nat) : nat := 2 * (k + 1).

Definition grp_at (ns : list (list_node nat)) (x j : nat) : Prop := vl ns x = Val (base + j * gs) /\ j < sz.

(** The chain holds the groups [js]; the pend elements [P] are left. *)
Definition cst (pend : list nat) (p : node_pool nat) (js P : list nat) : Prop :=
  exists ids, chain (nodes p) cap ids /\ freelist (nodes p) (first_free p) (seq (length ids) (cap - length ids)) /\
   Permutation ids (seq 0 (length ids)) /\ length (nodes p) = S cap /\ capacity p = cap /\
   Forall2 (grp_at (nodes p)) ids js /\ Permutation (js ++ map pg P) (seq 0 sz) /\ (ord -> sorted lt (map key js)) /\
   (forall k, In k P -> exists u, nth_error pend k = Some u /\ (u = cap \/ In u ids /\ vl (nodes p) u = Val (base + (pg k + 1) * gs) /\ (ord -> le (key (pg k)) (key (pg k + 1))))).

Lemma seq_nodup_app : forall ids, Permutation ids (seq 0 (length ids)) -> length ids <= cap -> NoDup ((cap :: ids) ++ seq (length ids) (cap - length ids)).
Proof.
  intros ids HP HL. simpl. assert (HP2 : Permutation (ids ++ seq (length ids) (cap - length ids)) (seq 0 cap)).
  { replace cap with (length ids + (cap - length ids)) at 2 by lia. rewrite seq_app. apply Permutation_app; auto. }
  constructor.
  - intros H. apply (Permutation_in _ HP2), in_seq in H. lia.
  - eapply Permutation_NoDup; [apply Permutation_sym; exact HP2|apply seq_NoDup].
Qed.

Lemma Forall2_in_l : forall X Y (R : X -> Y -> Prop) l l' x, Forall2 R l l' -> In x l -> exists y, R x y.
Proof. induction 1; intros []; subst; eauto. Qed.
Lemma Forall2_insert : forall X Y (R : X -> Y -> Prop) a b c d x y, length a = length c -> Forall2 R (a ++ b) (c ++ d) -> R x y -> Forall2 R (a ++ x :: b) (c ++ y :: d).
Proof.
  intros X Y R a b c d x y HL HF HR. apply Forall2_app_l in HF as (c' & d' & E & H1 & H2).
  assert (c = c' /\ d = d') as [-> ->]. { apply app_inj_len; auto. pose proof (Forall2_length H1). lia. }
  apply Forall2_app; auto.
Qed.

Lemma cst_insert : forall pend p js P k P' u (Q : node_pool nat -> mem A -> Prop), cst pend p js P -> Permutation P (k :: P') -> nth_error pend k = Some u ->
  (forall p' js', cst pend p' js' P' -> Q p' m) -> wp (insert_in_chain comp proj gs p cap u (base + pg k * gs)) Q m.
Proof.
  intros pend p js P k P' u Q (ids & HC & HF & HPi & HL & Hcap & HG & HP & HS & HB) HPP Hu HQ. unfold insert_in_chain.
  apply wp_bind. unfold list_begin. eapply wp_list_next. { apply (chain_begin _ _ _ HC). }
  assert (Hk : pg k < sz).
  { assert (In (pg k) (seq 0 sz)) as H. { apply (Permutation_in _ HP). apply in_or_app. right. apply in_map. apply (Permutation_in _ (Permutation_sym HPP)). now left. }
    apply in_seq in H. lia. }
  apply wp_bind. eapply wp_get. { apply Hm; auto. }
  destruct (HB k) as (u' & Eu & HU). { apply (Permutation_in _ (Permutation_sym HPP)). now left. }
  rewrite Hu in Eu. injection Eu as <-.
  assert (HLj : length ids = length js) by (eapply Forall2_length; eauto).
  assert (HLE : length ids < cap).
  { apply Permutation_length in HP. rewrite app_length, map_length, seq_length in HP. apply Permutation_length in HPP. simpl in HPP. lia. }
  assert (exists i1 i2 j1 j2, ids = i1 ++ i2 /\ js = j1 ++ j2 /\ length i1 = length j1 /\ u = fst_or cap i2 /\
            (ord -> forall j, In j j2 -> le (key (pg k)) (key j))) as (i1 & i2 & j1 & j2 & E1 & E2 & E3 & E4 & E5).
  { destruct HU as [->|(HI & HV & HO)].
    - exists ids, [], js, []. rewrite !app_nil_r. cj; auto. intros _ j [].
    - apply in_split in HI as (i1 & i2 & ->). apply Forall2_app_l in HG as (j1 & j2' & -> & H1 & H2). inversion H2 as [|? j ? j2 [V1 V2] H3]; subst.
      exists i1, (u :: i2), j1, (j :: j2). cj; auto. { eapply Forall2_length; eauto. }
      rewrite V1 in HV. injection HV as HV. assert (j = pg k + 1) as -> by nia.
      intros Ho j' [<-|Hj]; auto. apply (le_trans lt (HORD Ho)) with (y := key (pg k + 1)); auto.
      specialize (HS Ho). rewrite map_app in HS. apply sorted_app in HS as (_ & HS & _). simpl in HS. apply sorted_cons in HS as [HS _]. apply HS. now apply in_map. }
  subst ids js. assert (HG' := HG). apply Forall2_app_l in HG' as (j1' & j2' & E & HG1 & HG2).
  assert (j1 = j1' /\ j2 = j2') as [<- <-]. { apply app_inj_len; auto. pose proof (Forall2_length HG1). lia. } clear E.
  apply wp_bind. eapply chain_upper_bound_wp with (l1 := i1) (l2 := i2) (keys := map key j1); eauto.
  { clear - HG1 Hm. induction HG1 as [|x j i1 j1 [V1 V2] _ IH]; simpl; constructor; auto. exists (base + j * gs). auto. }
  intros k1 k2 a1 a2 -> EA HLk HO. apply map_eq_app in EA as (j11 & j12 & -> & <- & <-). rewrite map_length in HLk.
  set (ids := (k1 ++ k2) ++ i2) in *.
  assert (HX : seq (length ids) (cap - length ids) = length ids :: seq (S (length ids)) (cap - S (length ids))).
  { destruct (cap - length ids) as [|z] eqn:Ez; [lia|]. replace (cap - S (length ids)) with z by lia. reflexivity. }
  rewrite HX in HF. pose proof (seq_nodup_app ids HPi ltac:(lia)) as ND. rewrite HX in ND.
  assert (Eids : ids = k1 ++ (k2 ++ i2)) by (unfold ids; now rewrite app_assoc).
  apply wp_bind. eapply insert_node_wp with (l1 := k1) (l2 := k2 ++ i2) (x := length ids) (fs := seq (S (length ids)) (cap - S (length ids))); auto.
  { rewrite <- Eids. exact HC. } { rewrite <- Eids. exact ND. }
  intros p' L' C' CH' FL' V' F'. apply wp_ret. apply (HQ p' (j11 ++ pg k :: (j12 ++ j2))).
  assert (HLN : length (k1 ++ length ids :: k2 ++ i2) = S (length ids)). { rewrite Eids, !app_length. simpl. rewrite !app_length. lia. }
  assert (NIN : ~ In (length ids) ids). { intros H. apply (Permutation_in _ HPi), in_seq in H. lia. }
  exists (k1 ++ length ids :: k2 ++ i2). rewrite HLN. cj; auto; try lia.
  - rewrite seq_S. simpl.
    apply Permutation_trans with (length ids :: k1 ++ k2 ++ i2); [apply Permutation_sym, Permutation_middle|].
    rewrite <- Eids. apply Permutation_trans with (ids ++ [length ids]); [apply Permutation_cons_append|]. apply Permutation_app_tail. exact HPi.
  - apply Forall2_insert; auto.
    + rewrite <- Eids. replace (j11 ++ j12 ++ j2) with ((j11 ++ j12) ++ j2) by now rewrite app_assoc.
      assert (forall l js0, incl l ids -> Forall2 (grp_at (nodes p)) l js0 -> Forall2 (grp_at (nodes p')) l js0) as HMono.
      { intros l js0 Hl H. induction H as [|x j l js0 [W1 W2] H IH]; constructor; [|apply IH; intros z Hz; apply Hl; now right].
        split; auto. rewrite V'. destruct (Nat.eqb_spec x (length ids)) as [->|_]; auto. destruct NIN. apply Hl. now left. }
      apply HMono; [intros z Hz; exact Hz|exact HG].
    + split; auto. rewrite V', Nat.eqb_refl. reflexivity.
  - apply Permutation_trans with (((j11 ++ j12) ++ j2) ++ map pg P); [|exact HP].
    apply Permutation_trans with (pg k :: (j11 ++ j12 ++ j2) ++ map pg P').
    { change (pg k :: (j11 ++ j12 ++ j2) ++ map pg P') with ((pg k :: j11 ++ j12 ++ j2) ++ map pg P'). apply Permutation_app_tail. apply Permutation_sym, Permutation_middle. }
    rewrite (app_assoc j11 j12 j2). apply Permutation_trans with (((j11 ++ j12) ++ j2) ++ pg k :: map pg P'); [apply Permutation_middle|].
    apply Permutation_app_head. change (pg k :: map pg P') with (map pg (k :: P')). apply Permutation_map. now apply Permutation_sym.
  - intros Ho. specialize (HS Ho). specialize (E5 Ho). specialize (HO Ho). rewrite !map_app in *.
    assert (HS1 := HS). apply sorted_app in HS1 as (HS1 & HS2 & HS3). destruct (HO HS1) as [O1 O2].
    assert (HS1' := HS1). apply sorted_app in HS1' as (HS11 & HS12 & HS13).
    apply sorted_app. cj; auto.
    + simpl. rewrite map_app. apply sorted_cons. split.
      * intros b Hb. apply in_app_or in Hb as [Hb|Hb]. { apply lt_le; auto. } apply in_map_iff in Hb as (j & <- & Hj). auto.
      * apply sorted_app. cj; auto. intros x y Hx Hy. apply HS3; auto. apply in_or_app. auto.
    + intros x y Hx [<-|Hy]. { apply O1. auto. } simpl in Hy. rewrite map_app in Hy. apply in_app_or in Hy as [Hy|Hy]; auto. apply HS3; auto. apply in_or_app. auto.
  - intros k' Hk'. destruct (HB k') as (u' & Eu' & HU'). { apply (Permutation_in _ (Permutation_sym HPP)). now right. }
    exists u'. split; auto. destruct HU' as [->|(W1 & W2 & W3)]; auto. right. cj; auto.
    + rewrite Eids in W1. apply in_app_or in W1. apply in_or_app. simpl. tauto.
    + rewrite V'. destruct (Nat.eqb_spec u' (length ids)) as [->|_]; auto. tauto.
Qed.

Lemma seq_snoc_perm : forall a n l, Permutation (seq a (S n) ++ l) (a + n :: seq a n ++ l).
Proof. intros. replace (S n) with (n + 1) by lia. rewrite seq_app. simpl. rewrite <- app_assoc. simpl. apply Permutation_sym, Permutation_middle. Qed.

Lemma insert_batch_wp : forall pend p js cp dist rest (Q : node_pool nat -> mem A -> Prop), cst pend p js (seq cp dist ++ rest) -> 0 < dist ->
  (forall p' js', cst pend p' js' rest -> Q p' m) -> wp (insert_batch comp proj gs p cap pend (base + cp * 2 * gs) cp dist) Q m.
Proof.
  intros pend p js cp dist rest Q HC Hd HQ. unfold insert_batch.
  apply wp_loop_k with (k := dist) (I := fun k '(it, pe, p) m' => m' = m /\ 0 < k /\ pe = cp + k /\ it = base + pe * 2 * gs /\ exists js, cst pend p js (seq cp k ++ rest)).
  - cj; auto. { lia. } eauto.
  - lia.
  - intros k [[it pe] p1] m' (-> & Hk & -> & -> & js1 & HC1). destruct k as [|k]; [lia|]. clear Hk.
    replace (cp + S k - 1) with (cp + k) by lia.
    assert (exists u, nth_error pend (cp + k) = Some u) as (u & Hu).
    { destruct HC1 as (ids & _ & _ & _ & _ & _ & _ & _ & _ & HB). destruct (HB (cp + k)) as (u & E & _); eauto. apply in_or_app. left. apply in_seq. lia. }
    apply wp_bind. eapply wp_rd; eauto. apply wp_bind.
    replace (base + (cp + S k) * 2 * gs) with (base + pg (cp + k) * gs) by (unfold pg; nia).
    eapply cst_insert; [exact HC1|apply seq_snoc_perm|exact Hu|].
    intros p' js' HC'. destruct (Nat.eqb_spec (cp + k) cp) as [E|E].
    + apply wp_ret. assert (k = 0) as -> by lia. eapply HQ. exact HC'.
    + apply wp_ret. exists k. split; [lia|]. cj; auto; try lia; [|eauto]. unfold pg. nia.
Qed.

Lemma insert_pend_wp : forall pend p js (Q : node_pool nat -> mem A -> Prop), cst pend p js (seq 0 (length pend)) ->
  (forall p' js', cst pend p' js' [] -> Q p' m) -> wp (insert_pend comp proj gs p cap pend base) Q m.
Proof.
  intros pend p js Q HC HQ. unfold insert_pend. apply wp_bind.
  apply wp_loop_k with (k := length pend) (I := fun k '(b, ci, cp, p) m' => m' = m /\ cp <= length pend /\ k = length pend - cp /\ ci = base + cp * 2 * gs /\
     (let '(pow2, jn, dist) := b in 0 < dist /\ jn <= pow2 /\ 0 < pow2) /\ exists js, cst pend p js (seq cp (length pend - cp))).
  - cj; auto; try lia. { unfold first_batch. lia. } rewrite Nat.sub_0_r. eauto.
  - lia.
  - intros k [[[[[pow2 jn] dist] ci] cp] p1] m' (-> & Hcp & -> & -> & (Hd & Hj & Hp) & js1 & HC1).
    destruct (Nat.leb_spec dist (length pend - cp)).
    + apply wp_bind. eapply insert_batch_wp with (rest := seq (cp + dist) (length pend - (cp + dist))); auto.
      { rewrite <- seq_app. replace (dist + (length pend - (cp + dist))) with (length pend - cp) by lia. exact HC1. }
      intros p' js' HC'. apply wp_ret. exists (length pend - (cp + dist)). split; [lia|]. cj; auto; try lia; try nia. 2: eauto. unfold next_batch. lia.
    + apply wp_ret.
      apply wp_loop_k with (k := length pend - cp) (I := fun k '(ci, cp, p) m' => m' = m /\ cp <= length pend /\ k = length pend - cp /\ ci = base + cp * 2 * gs /\
         exists js, cst pend p js (seq cp (length pend - cp))).
      * cj; auto; try lia. eauto.
      * lia.
      * clear dependent p1. clear cp Hcp js1 H. intros k [[ci cp] p1] m' (-> & Hcp & -> & -> & js1 & HC1).
        destruct (Nat.eqb_spec cp (length pend)) as [->|E].
        -- apply wp_ret. rewrite Nat.sub_diag in HC1. eapply HQ. exact HC1.
        -- assert (exists u, nth_error pend cp = Some u) as (u & Hu) by (apply nth_some; lia).
           apply wp_bind. eapply wp_rd; eauto. apply wp_bind. replace (base + cp * 2 * gs + 2 * gs) with (base + pg cp * gs) by (unfold pg; nia).
           eapply cst_insert with (P' := seq (S cp) (length pend - S cp)); [exact HC1| |exact Hu|].
           { replace (length pend - cp) with (S (length pend - S cp)) by lia. apply Permutation_refl. }
           intros p' js' HC'. apply wp_ret. exists (length pend - S cp). split; [lia|]. cj; auto; try lia; [|eauto]. unfold pg. nia.
Qed.

(** * Building the chain *)
Definition gof (x : nat) : nat := match x with 0 => 0 | S x => 2 * x + 1 end.

(** The first [t] nodes are in the chain, in order. *)
Definition bst (p : node_pool nat) (t : nat) : Prop :=
  chain (nodes p) cap (seq 0 t) /\ freelist (nodes p) (first_free p) (seq t (cap - t)) /\ length (nodes p) = S cap /\ capacity p = cap /\
  (forall x, x < t -> vl (nodes p) x = Val (base + gof x * gs)).

Lemma bst_push : forall p t v (Q : nat * node_pool nat -> mem A -> Prop), bst p t -> t < cap -> v = base + gof t * gs ->
  (forall p', bst p' (S t) -> Q (t, p') m) -> wp (insert_node p cap v) Q m.
Proof.
  intros p t v Q (HC & HF & HL & Hc & HV) Ht -> HQ.
  assert (HX : seq t (cap - t) = t :: seq (S t) (cap - S t)).
  { destruct (cap - t) as [|z] eqn:Ez; [lia|]. replace (cap - S t) with z by lia. reflexivity. }
  rewrite HX in HF. eapply insert_node_wp with (s := cap) (l1 := seq 0 t) (l2 := []) (x := t) (fs := seq (S t) (cap - S t)); auto.
  { rewrite app_nil_r. exact HC. }
  { rewrite app_nil_r. rewrite <- HX. simpl. rewrite <- seq_app. replace (t + (cap - t)) with cap by lia.
    constructor; [|apply seq_NoDup]. intros H. apply in_seq in H. lia. }
  intros p' L' C' CH' FL' V' F'. apply HQ. split; [|split; [|split; [|split]]]; auto; try lia.
  - replace (S t) with (t + 1) by lia. rewrite seq_app. exact CH'.
  - intros x Hx. rewrite V'. destruct (Nat.eqb_spec x t) as [->|]; auto. apply HV. lia.
Qed.

Definition chain_groups (h : nat) : list nat := 0 :: map (fun k => 2 * k + 1) (seq 0 h).

Lemma chain_groups_perm : 2 <= sz -> Permutation (chain_groups (sz / 2) ++ map pg (seq 0 ((sz + 1) / 2 - 1))) (seq 0 sz).
Proof.
  intros H2. pose proof (Nat.div_mod sz 2 ltac:(lia)). pose proof (Nat.mod_upper_bound sz 2 ltac:(lia)).
  pose proof (Nat.div_mod (sz + 1) 2 ltac:(lia)). pose proof (Nat.mod_upper_bound (sz + 1) 2 ltac:(lia)).
  set (h := sz / 2) in *. set (h' := (sz + 1) / 2) in *.
  apply NoDup_Permutation; [|apply seq_NoDup|].
  - unfold chain_groups. simpl. constructor.
    + rewrite in_app_iff, !in_map_iff. intros [(k & E & _)|(k & E & _)]; unfold pg in *; lia.
    + apply NoDup_app_intro.
      * apply FinFun.Injective_map_NoDup; [|apply seq_NoDup]. intros x y E. lia.
      * apply FinFun.Injective_map_NoDup; [|apply seq_NoDup]. intros x y E. unfold pg in *. lia.
      * intros x. rewrite !in_map_iff. intros (k & <- & _) (k' & E & _). unfold pg in *. lia.
  - intros x. unfold chain_groups. simpl. rewrite in_app_iff, !in_map_iff, in_seq. split.
    + intros [<-|[(k & <- & Hk)|(k & <- & Hk)]]; [lia| |]; apply in_seq in Hk; unfold pg; lia.
    + intros Hx. destruct (Nat.eq_dec x 0) as [->|Hx0]; auto. right.
      pose proof (Nat.div_mod x 2 ltac:(lia)). pose proof (Nat.mod_upper_bound x 2 ltac:(lia)).
      destruct (Nat.eq_dec (x mod 2) 1).
      * left. exists (x / 2). split; [lia|]. apply in_seq. lia.
      * right. exists (x / 2 - 1). unfold pg. split; [lia|]. apply in_seq. lia.
Qed.

Lemma make_chain_wp : forall p0 has_stray end_ (Q : nat * list nat * node_pool nat -> mem A -> Prop), 2 <= sz -> pristine p0 cap ->
  has_stray = negb (sz mod 2 =? 0) -> end_ = base + 2 * (sz / 2) * gs ->
  (ord -> sorted lt (map key (chain_groups (sz / 2)))) ->
  (ord -> forall k, 2 * k + 1 < sz -> le (key (2 * k)) (key (2 * k + 1))) ->
  (forall pend p js, cst pend p js (seq 0 (length pend)) -> Q (cap, pend, p) m) ->
  wp (make_chain gs p0 sz base end_ has_stray) Q m.
Proof.
  intros p0 has_stray end_ Q H2 HPR -> -> HS HLE HQ. unfold make_chain. destruct (new_list p0) as [s p1] eqn:EN.
  apply new_list_chain in EN as (-> & HC & HL & Hf & Hc & HF). assert (HPR' := HPR). destruct HPR' as (E1 & E2 & E3 & E4). rewrite E1 in *.
  assert (bst p1 0) as B0.
  { split; [|split; [|split; [|split]]]; auto; try lia. rewrite Nat.sub_0_r, Hf. eapply freelist_frame; [apply pristine_freelist; eauto; lia|lia|].
    intros x Hx. apply in_seq in Hx. destruct (HF x) as (F1 & _ & F2); [lia|]. auto. }
  apply wp_bind. eapply bst_push; [exact B0|lia|simpl; lia|]. intros p2 B2.
  apply wp_bind. eapply bst_push; [exact B2|lia|simpl; lia|]. intros p3 B3. apply wp_bind.
  pose proof (Nat.div_mod sz 2 ltac:(lia)). pose proof (Nat.mod_upper_bound sz 2 ltac:(lia)).
  pose proof (Nat.div_mod (sz + 1) 2 ltac:(lia)). pose proof (Nat.mod_upper_bound (sz + 1) 2 ltac:(lia)).
  pose proof chain_groups_perm H2 as HCP.
  set (h := sz / 2) in *. set (h' := (sz + 1) / 2) in *.
  apply wp_loop_k with (k := h - 1) (I := fun k '(it, pend, p) m' => m' = m /\ exists i, 1 <= i <= h /\ k = h - i /\ it = base + 2 * i * gs /\ pend = seq 2 (i - 1) /\ bst p (S i)).
  - split; auto. exists 1. cj; auto; lia.
  - lia.
  - intros k [[it pend] p4] m' (-> & i & Hi & -> & -> & -> & B4). destruct (Nat.eqb_spec (base + 2 * i * gs) (base + 2 * h * gs)) as [E|E].
    + assert (i = h) as -> by nia. apply wp_ret.
      assert (exists pend, length pend = h' - 1 /\ (forall k, k < h - 1 -> nth_error pend k = Some (k + 2)) /\ (forall k, h - 1 <= k < h' - 1 -> nth_error pend k = Some cap) /\
        wp (if negb (sz mod 2 =? 0) then emplace_back (seq 2 (h - 1)) (h' - 1) cap else ret (seq 2 (h - 1))) (fun pd m' => pd = pend /\ m' = m) m) as (pend & P1 & P2 & P3 & P4).
      { assert (forall k n b, k < n -> nth_error (seq b n) k = Some (k + b)) as HSEQ.
        { intros k0 n b Hk. rewrite (nth_error_nth' _ 0) by (rewrite seq_length; lia). rewrite seq_nth by lia. f_equal. lia. }
        destruct (Nat.eqb_spec (sz mod 2) 0) as [Em|Em]; simpl negb; cbv iota.
        - exists (seq 2 (h - 1)). rewrite seq_length. cj; auto; try lia. apply wp_ret. auto.
        - exists (seq 2 (h - 1) ++ [cap]). rewrite app_length, seq_length. simpl. cj; auto; try lia.
          + intros k Hk. rewrite nth_error_app1 by (rewrite seq_length; lia). apply HSEQ. lia.
          + intros k Hk. rewrite nth_error_app2 by (rewrite seq_length; lia). rewrite seq_length. replace (k - (h - 1)) with 0 by lia. reflexivity.
          + unfold emplace_back. apply wp_bind. apply wp_assert. { apply Nat.ltb_lt. rewrite seq_length. lia. } apply wp_ret. auto. }
      apply wp_bind. eapply wp_mono; [exact P4|]. intros pd m' [-> ->]. apply wp_ret. apply (HQ pend p4 (chain_groups h)). rewrite P1.
      destruct B4 as (C1 & C2 & C3 & C4 & C5). exists (seq 0 (S h)). rewrite seq_length. cj; auto; try lia.
      * unfold grp_at. change (seq 0 (S h)) with (0 :: seq 1 h). constructor. { split; [|lia]. rewrite C5 by lia. reflexivity. }
        rewrite <- seq_shift. clear - C5 H H0 Hgs. assert (forall a n, a + n <= h -> Forall2 (fun x j => vl (nodes p4) x = Val (base + j * gs) /\ j < sz) (map S (seq a n)) (map (fun k => 2 * k + 1) (seq a n))) as HG.
        { intros a n. revert a. induction n as [|n IH]; intros a Ha; simpl; constructor. { split; [|lia]. rewrite C5 by lia. reflexivity. } apply IH. lia. }
        apply HG. lia.
      * intros k Hk. apply in_seq in Hk. destruct (Nat.lt_ge_cases k (h - 1)) as [Hk1|Hk1].
        -- exists (k + 2). split; auto. right. cj.
           ++ apply in_seq. lia.
           ++ rewrite C5 by lia. f_equal. f_equal. f_equal. replace (k + 2) with (S (k + 1)) by lia. unfold gof, pg. lia.
           ++ intros Ho. unfold pg. apply HLE; auto. lia.
        -- exists cap. split; auto. apply P3. lia.
    + assert (Hih : i < h). { destruct (Nat.eq_dec i h) as [->|]; [tauto|lia]. }
      apply wp_bind. eapply bst_push; [exact B4|lia| |].
      { simpl gof. nia. }
      intros p5 B5. apply wp_bind. unfold emplace_back. apply wp_bind. apply wp_assert. { apply Nat.ltb_lt. rewrite seq_length. lia. } apply wp_ret. apply wp_ret.
      exists (h - S i). split; [lia|]. split; auto. exists (S i). cj; auto; try lia. simpl. replace (i - 0) with (i - 1 + 1) by lia. rewrite seq_app.
      replace (2 + (i - 1)) with (S i) by lia. reflexivity.
Qed.
End Level.
End Chain.

(** * Moving the groups in the order of the chain *)
Section Move.
Context {A : Type} (gs : nat) (gss : list (list A)).
Notation sz := (length gss).
Hypothesis Hlen : forall g, In g gss -> length g = gs.

Definition grp (j : nat) : list A := nth j gss [].
Lemma grp_length : forall j, j < sz -> length (grp j) = gs.
Proof. intros j Hj. apply Hlen. unfold grp. now apply nth_In. Qed.

Definition cellf (D : list nat) (j : nat) : mem A := if in_dec Nat.eq_dec j D then repeat Moved gs else map Val (grp j).
Definition segm (D : list nat) (l : list nat) : mem A := concat (map (cellf D) l).

Lemma cellf_length : forall D j, j < sz -> length (cellf D j) = gs.
Proof. intros D j Hj. unfold cellf. destruct in_dec; [apply repeat_length|]. rewrite map_length. now apply grp_length. Qed.
Lemma segm_length : forall D l, (forall j, In j l -> j < sz) -> length (segm D l) = length l * gs.
Proof. intros D l. induction l as [|j l IH]; intros H; simpl; auto. unfold segm in *. simpl. rewrite app_length, cellf_length, IH; auto; intros; apply H; simpl; auto. Qed.
Lemma segm_app : forall D a b, segm D (a ++ b) = segm D a ++ segm D b.
Proof. intros. unfold segm. now rewrite map_app, concat_app. Qed.
Lemma segm_ext : forall D D' l, (forall j, In j l -> (In j D <-> In j D')) -> segm D l = segm D' l.
Proof.
  intros D D' l H. unfold segm. f_equal. apply map_ext_in. intros j Hj. unfold cellf. specialize (H j Hj).
  destruct (in_dec Nat.eq_dec j D), (in_dec Nat.eq_dec j D'); auto; tauto.
Qed.
Lemma segm_nil : segm [] (seq 0 sz) = map Val (concat gss).
Proof.
  unfold segm. rewrite concat_map. f_equal.
  assert (forall l : list (list A), map (fun j => map Val (nth j l [])) (seq 0 (length l)) = map (map (@Val A)) l) as H.
  { induction l as [|x l IH]; auto. simpl. f_equal. rewrite <- seq_shift, map_map. exact IH. }
  rewrite <- H. reflexivity.
Qed.
Lemma segm_live : forall D l, Forall live (segm D l).
Proof.
  intros D l. unfold segm. induction l; simpl; [constructor|]. apply live_app. split; auto. unfold cellf. destruct in_dec.
  - apply Forall_forall. intros c Hc. apply repeat_spec in Hc. subst. discriminate.
  - apply Forall_forall. intros c Hc. apply in_map_iff in Hc as (? & <- & _). discriminate.
Qed.

Lemma concat_map_length : forall js, (forall j, In j js -> j < sz) -> length (concat (map grp js)) = length js * gs.
Proof. intros l. induction l as [|j l IH]; intros H; simpl; auto. rewrite app_length, grp_length, IH; auto; intros; apply H; simpl; auto. Qed.

Lemma move_chain_wp : forall pre post (p : node_pool nat) s ids js, chain (nodes p) s ids -> Forall2 (grp_at gs (length pre) sz (nodes p)) ids js -> NoDup js -> length js = sz ->
  wp (move_chain gs p s sz (length pre)) (fun _ m' => m' = pre ++ map Val (concat (map grp js)) ++ post) (pre ++ map Val (concat gss) ++ post).
Proof.
  intros pre post p s ids js HC HG ND HLj. unfold move_chain.
  assert (Hin : forall j, In j js -> j < sz). { intros j Hj. clear - HG Hj. induction HG as [|x j' ids js [_ H] _ IH]; [destruct Hj|]. destruct Hj as [->|Hj]; auto. }
  apply wp_bind, wp_alloc. rewrite <- segm_nil.
  set (cache := length (pre ++ segm [] (seq 0 sz) ++ post)).
  assert (Ec : cache = length pre + sz * gs + length post). { unfold cache. rewrite !app_length, segm_length, seq_length; [lia|]. intros j Hj. apply in_seq in Hj. lia. }
  clearbody cache. subst cache.
  apply wp_bind. unfold list_begin. eapply wp_list_next. { apply (chain_begin _ _ _ HC). }
  assert (HLI : length ids <= length (nodes p)).
  { destruct HC as (NDi & HIN & _). assert (incl ids (seq 0 (length (nodes p)))) as HI. { intros z Hz. apply in_seq. specialize (HIN z (or_intror Hz)). lia. }
    apply NoDup_incl_length in HI; [|inversion NDi; auto]. now rewrite seq_length in HI. }
  apply wp_bind.
  apply wp_loop_k with (k := length ids) (I := fun k '(it, ce) m' => exists i1 i2 j1 j2, ids = i1 ++ i2 /\ js = j1 ++ j2 /\ length i1 = length j1 /\ k = length i2 /\ it = fst_or s i2 /\
     ce = length pre + sz * gs + length post + length j1 * gs /\ m' = pre ++ segm j1 (seq 0 sz) ++ post ++ map Val (concat (map grp j1)) ++ repeat Raw (length j2 * gs)).
  { exists [], ids, [], js. cj; auto. rewrite HLj. simpl. rewrite <- !app_assoc. reflexivity. }
  { lia. }
  intros k [it ce] m' (i1 & i2 & j1 & j2 & -> & -> & HL1 & -> & -> & -> & ->).
  apply Forall2_app_inv_l in HG as (j1' & j2' & HG1 & HG2 & EJ).
  assert (j1 = j1' /\ j2 = j2') as [<- <-]. { apply app_inj_len; auto. pose proof (Forall2_length HG1). lia. } clear EJ.
  destruct i2 as [|x i2].
  - inversion HG2; subst. simpl fst_or. rewrite Nat.eqb_refl. apply wp_ret. rewrite app_nil_r in *. simpl repeat. rewrite app_nil_r.
    assert (HLS : length (segm j1 (seq 0 sz)) = sz * gs). { rewrite segm_length, seq_length; auto. intros j Hj. apply in_seq in Hj. lia. }
    assert (HLC := concat_map_length j1 Hin). rewrite HLj in *.
    apply wp_bind. reshape (pre ++ segm j1 (seq 0 sz) ++ post ++ map Val (concat (map grp j1)) ++ []).
    apply move_range_far; auto; try lia. { apply segm_live. }
    intros D HD HDn. apply wp_bind. reshape ((pre ++ map Val (concat (map grp j1)) ++ post) ++ D ++ []).
    apply destroy_range_seg; auto; [lens|lens|]. rewrite app_nil_r, HDn, HLC. apply wp_dealloc; [lens|]. reflexivity.
  - inversion HG2 as [|? j ? j2' [V1 V2] HG2']; subst. rename j2' into j2.
    unfold fst_or at 1. simpl hd. destruct (Nat.eqb_spec x s) as [->|_].
    { exfalso. destruct HC as (NDi & _). inversion NDi; subst. apply H1. apply in_or_app. right. now left. }
    apply wp_bind. eapply wp_list_deref; eauto. apply wp_bind.
    assert (NI : ~ In j j1). { apply NoDup_remove_2 in ND. rewrite in_app_iff in ND. tauto. }
    assert (EQ : seq 0 sz = seq 0 j ++ j :: seq (S j) (sz - S j)).
    { replace sz with (j + S (sz - S j)) at 1 by lia. rewrite seq_app. reflexivity. }
    assert (Hs1 : forall D, length (segm D (seq 0 j)) = j * gs). { intros D. rewrite segm_length, seq_length; auto. intros j' Hj'. apply in_seq in Hj'. lia. }
    assert (Hs2 : forall D, length (segm D (seq (S j) (sz - S j))) = (sz - S j) * gs). { intros D. rewrite segm_length, seq_length; auto. intros j' Hj'. apply in_seq in Hj'. lia. }
    assert (HLg := grp_length j V2). assert (Hc1 := concat_map_length j1 ltac:(intros; apply Hin; apply in_or_app; auto)).
    assert (Hszj : sz * gs = j * gs + gs + (sz - S j) * gs) by nia.
    rewrite EQ. rewrite segm_app. change (segm j1 (j :: seq (S j) (sz - S j))) with (cellf j1 j ++ segm j1 (seq (S j) (sz - S j))).
    assert (cellf j1 j = map Val (grp j)) as -> by (unfold cellf; destruct in_dec; tauto).
    reshape ((pre ++ segm j1 (seq 0 j)) ++ map Val (grp j) ++ (segm j1 (seq (S j) (sz - S j)) ++ post ++ map Val (concat (map grp j1))) ++ repeat Raw (length (grp j)) ++ repeat Raw (length j2 * gs)).
    { replace (length (j :: j2) * gs) with (length (grp j) + length j2 * gs) by (simpl; lia). rewrite repeat_app, <- !app_assoc. reflexivity. }
    change (insert_back (length pre + j * gs)) with (@uninitialized_move A (length pre + j * gs)).
    apply uninitialized_move_seg.
    { rewrite app_length, Hs1. lia. } { lia. } { rewrite !app_length, Hs2, map_length, Hc1. nia. }
    apply wp_bind. eapply wp_list_next. { eapply chain_next. exact HC. } apply wp_ret.
    exists (length i2). split; [simpl; lia|]. exists (i1 ++ [x]), i2, (j1 ++ [j]), j2. rewrite !app_length. simpl length. cj; auto; try lia.
    + solve_app. + solve_app.
    + rewrite HLg, segm_app. change (segm (j1 ++ [j]) (j :: seq (S j) (sz - S j))) with (cellf (j1 ++ [j]) j ++ segm (j1 ++ [j]) (seq (S j) (sz - S j))).
      assert (cellf (j1 ++ [j]) j = repeat Moved gs) as ->. { unfold cellf. destruct in_dec as [|n]; auto. destruct n. apply in_or_app. right. now left. }
      rewrite (segm_ext (j1 ++ [j]) j1 (seq 0 j)). 2:{ intros z Hz. apply in_seq in Hz. rewrite in_app_iff. simpl. intuition lia. }
      rewrite (segm_ext (j1 ++ [j]) j1 (seq (S j) (sz - S j))). 2:{ intros z Hz. apply in_seq in Hz. rewrite in_app_iff. simpl. intuition lia. }
      rewrite map_app, concat_app. simpl. rewrite app_nil_r. solve_app.
Qed.
End Move.

(** * Pairs of groups *)
Section Pairs.
Context {X : Type}.
Definition unpair (l : list (X * X)) : list X := flat_map (fun '(a, b) => [a; b]) l.

Lemma unpair_length : forall l, length (unpair l) = 2 * length l.
Proof. induction l as [|[a b] l IH]; simpl; auto. rewrite IH. lia. Qed.
Lemma unpair_app : forall l l', unpair (l ++ l') = unpair l ++ unpair l'.
Proof. intros. unfold unpair. apply flat_map_app. Qed.
Lemma unpair_perm : forall l l', Permutation l l' -> Permutation (unpair l) (unpair l').
Proof. intros. now apply Permutation_flat_map. Qed.

Lemma unpair_nth_even : forall l st i d, i < length l -> nth (2 * i) (unpair l ++ st) d = fst (nth i l (d, d)).
Proof.
  induction l as [|[a b] l IH]; intros st i d Hi; simpl in Hi; [lia|]. destruct i as [|i]; auto.
  replace (2 * S i) with (S (S (2 * i))) by lia. simpl. rewrite <- IH with (st := st) by lia. reflexivity.
Qed.
Lemma unpair_nth_odd : forall l st i d, i < length l -> nth (2 * i + 1) (unpair l ++ st) d = snd (nth i l (d, d)).
Proof.
  induction l as [|[a b] l IH]; intros st i d Hi; simpl in Hi; [lia|]. destruct i as [|i]; auto.
  replace (2 * S i + 1) with (S (S (2 * i + 1))) by lia. simpl. rewrite <- IH with (st := st) by lia. reflexivity.
Qed.

(** Every list is made of pairs and at most one more element. *)
Lemma pair_up : forall l : list X, exists pl st, l = unpair pl ++ st /\ length pl = length l / 2 /\ length st = length l mod 2.
Proof.
  intros l. remember (length l) as n. revert l Heqn. induction n as [n IH] using lt_wf_ind. intros [|a [|b l]] ->.
  - exists [], []. auto.
  - exists [], [a]. auto.
  - destruct (IH (length l) ltac:(simpl; lia) l eq_refl) as (pl & st & -> & H1 & H2). exists ((a, b) :: pl), st. cj; auto.
    + simpl length. rewrite H1. replace (S (S (length (unpair pl ++ st)))) with (length (unpair pl ++ st) + 1 * 2) by lia. rewrite Nat.div_add by lia. lia.
    + rewrite H2. simpl length. replace (S (S (length (unpair pl ++ st)))) with (length (unpair pl ++ st) + 1 * 2) by lia. rewrite Nat.mod_add by lia. auto.
Qed.
End Pairs.

Section Sort.
Context {A T : Type} (comp : T -> T -> bool) (proj : A -> T) (ord : Prop).
Notation lt := (by_proj comp proj).
Notation le := (OrderLib.le lt).
Hypothesis HORD : ord -> strict_weak_order lt.
Variable d : A.

(** The value of a group. *)
Definition lastk (gs : nat) (g : list A) : A := nth (gs - 1) g d.
Definition glue (q : list A * list A) : list A := fst q ++ snd q.
Definition ordered_pair (gs : nat) (q : list A * list A) : list A * list A := if lt (lastk gs (snd q)) (lastk gs (fst q)) then (snd q, fst q) else q.
Definition pair_len (gs : nat) (q : list A * list A) : Prop := length (fst q) = gs /\ length (snd q) = gs.

Lemma concat_unpair : forall l, concat (unpair l) = concat (map glue l).
Proof. induction l as [|[a b] l IH]; simpl; auto. rewrite IH. unfold glue. simpl. now rewrite app_assoc. Qed.

Lemma group_split : forall gs g, 0 < gs -> length g = gs -> exists g', g = g' ++ [lastk gs g] /\ length g' = gs - 1.
Proof.
  intros gs g Hgs HL. destruct (exists_last (l := g)) as (g' & a & ->). { destruct g; [simpl in HL; lia|discriminate]. }
  rewrite app_length in HL. simpl in HL. exists g'. split; [|lia]. f_equal. f_equal. unfold lastk. rewrite app_nth2 by lia. replace (gs - 1 - length g') with 0 by lia. reflexivity.
Qed.

Lemma group_swap_if_wp : forall gs a b pre post l r (Q : unit -> mem A -> Prop), 0 < gs -> length a = gs -> length b = gs -> l = length pre -> r = l + gs ->
  Q tt (pre ++ map Val (glue (ordered_pair gs (a, b))) ++ post) -> wp (group_swap_if comp proj gs l r) Q (pre ++ map Val (a ++ b) ++ post).
Proof.
  intros gs a b pre post l r Q Hgs La Lb -> -> HQ. unfold group_swap_if.
  destruct (group_split gs a Hgs La) as (a' & Ea & La'). destruct (group_split gs b Hgs Lb) as (b' & Eb & Lb').
  apply wp_bind. unfold less_at.
  reshape ((pre ++ map Val (a ++ b')) ++ Val (lastk gs b) :: post). { rewrite Eb at 1. solve_app. }
  apply wp_bind. apply wp_get_at. { rewrite app_length, map_length, app_length. lia. }
  reshape ((pre ++ map Val a') ++ Val (lastk gs a) :: map Val b ++ post). { rewrite Ea at 1. rewrite Eb at 2. solve_app. }
  apply wp_bind. apply wp_get_at. { rewrite app_length, map_length. lia. }
  apply wp_ret. change (comp (proj (lastk gs b)) (proj (lastk gs a))) with (lt (lastk gs b) (lastk gs a)).
  reshape (pre ++ map Val (a ++ b) ++ post). { rewrite Ea at 2. solve_app. }
  unfold ordered_pair in HQ. cbn [fst snd] in HQ. destruct (lt (lastk gs b) (lastk gs a)); unfold glue in HQ; cbn [fst snd] in HQ; [|apply wp_ret; exact HQ].
  unfold swap_ranges_inner. apply wp_bind. apply wp_bind, wp_assert. { apply Nat.leb_le. lia. }
  apply wp_bind, wp_assert. { apply negb_true_iff, andb_false_iff. right. apply Nat.ltb_ge. lia. }
  apply wp_bind, wp_assert. { apply negb_true_iff, andb_false_iff. right. apply Nat.leb_gt. lia. }
  reshape (pre ++ map Val a ++ [] ++ map Val b ++ post). apply swap_ranges_wp; auto; try lia; try (simpl; lia).
  apply wp_ret. match goal with |- Q tt ?m => replace m with (pre ++ map Val (b ++ a) ++ post) by solve_app end. exact HQ.
Qed.

Lemma pair_loop_wp : forall gs pl pre post fuel end_ (Q : unit -> mem A -> Prop), 0 < gs -> Forall (pair_len gs) pl -> end_ = length pre + 2 * length pl * gs -> length pl < fuel ->
  Q tt (pre ++ map Val (concat (map glue (map (ordered_pair gs) pl))) ++ post) ->
  wp (loop fuel (fun it => if it =? end_ then ret (inr tt) else group_swap_if comp proj gs it (it + gs) ;; ret (inl (it + 2 * gs))) (length pre)) Q
    (pre ++ map Val (concat (map glue pl)) ++ post).
Proof.
  intros gs pl pre post fuel end_ Q Hgs HF -> Hf HQ.
  assert (HLO : forall l, Forall (pair_len gs) l -> length (concat (map glue (map (ordered_pair gs) l))) = 2 * length l * gs).
  { induction 1 as [|[a b] l [Ha Hb] _ IH]; simpl; auto. rewrite app_length, IH. unfold glue, ordered_pair. simpl in *. destruct (lt _ _); simpl; rewrite app_length; lia. }
  apply wp_loop_k with (k := length pl) (I := fun k it m => exists p1 p2, pl = p1 ++ p2 /\ it = length pre + 2 * length p1 * gs /\ k = length p2 /\
    m = pre ++ map Val (concat (map glue (map (ordered_pair gs) p1)) ++ concat (map glue p2)) ++ post).
  - exists [], pl. cj; auto.
  - lia.
  - intros k it m (p1 & p2 & -> & -> & -> & ->). apply Forall_app in HF as [HF1 HF2]. rewrite app_length. destruct p2 as [|[a b] p2].
    + cbn [length]. rewrite Nat.add_0_r, Nat.eqb_refl. apply wp_ret. rewrite !app_nil_r in *. exact HQ.
    + destruct (Nat.eqb_spec (length pre + 2 * length p1 * gs) (length pre + 2 * (length p1 + length ((a, b) :: p2)) * gs)) as [E|E]; [simpl in E; nia|].
      apply Forall_cons_iff in HF2 as [[Ha Hb] HF2']. cbn [fst snd] in *.
      apply wp_bind. reshape ((pre ++ map Val (concat (map glue (map (ordered_pair gs) p1)))) ++ map Val (a ++ b) ++ map Val (concat (map glue p2)) ++ post).
      { simpl. unfold glue at 2. cbn [fst snd]. solve_app. }
      eapply group_swap_if_wp; auto. { rewrite app_length, map_length, HLO; auto. }
      apply wp_ret. exists (length p2). split; [simpl; lia|]. exists (p1 ++ [(a, b)]), p2. cj; auto.
      * now rewrite <- app_assoc.
      * rewrite app_length. simpl. nia.
      * rewrite !map_app, !concat_app. simpl. rewrite app_nil_r. solve_app.
Qed.

Lemma map_nth_perm : forall (gss : list (list A)) js, Permutation js (seq 0 (length gss)) -> Permutation gss (map (grp gss) js).
Proof.
  intros gss js H. apply Permutation_trans with (map (grp gss) (seq 0 (length gss))); [|apply Permutation_map, Permutation_sym; auto].
  assert (map (grp gss) (seq 0 (length gss)) = gss) as ->; auto.
  unfold grp. clear. induction gss as [|x l IH]; auto. simpl. f_equal. rewrite <- seq_shift, map_map. exact IH.
Qed.

Lemma concat_length_const : forall gs (gss : list (list A)), (forall g, In g gss -> length g = gs) -> length (concat gss) = length gss * gs.
Proof. intros gs gss. induction gss as [|g l IH]; intros H; simpl; auto. rewrite app_length, IH, H; auto; simpl; auto. intros. apply H. now right. Qed.

Lemma impl_wp : forall fuel gs gss pre post cap (p : node_pool nat), 0 < gs -> (forall g, In g gss -> length g = gs) -> length gss < fuel -> 0 < cap -> length gss <= cap -> pristine p cap ->
  wp (merge_insertion_sort_impl comp proj fuel gs (length pre) (length pre + length gss * gs) p)
    (fun p' m => (1 < gs -> pristine p' cap) /\ exists gss', Permutation gss gss' /\ m = pre ++ map Val (concat gss') ++ post /\ (ord -> sorted lt (map (lastk gs) gss')))
    (pre ++ map Val (concat gss) ++ post).
Proof.
  induction fuel as [|fuel IH]; intros gs gss pre post cap p Hgs Hlen Hf Hc Hle HPR; [lia|]. cbn [merge_insertion_sort_impl].
  replace (length pre + length gss * gs - length pre) with (length gss * gs) by lia. rewrite Nat.div_mul by lia.
  destruct (Nat.ltb_spec (length gss) 2) as [H2|H2].
  { apply wp_ret. split; auto. exists gss. cj; auto. intros _. destruct gss as [|x [|y l]]; [apply sorted_nil|apply sorted_one|simpl in H2; lia]. }
  destruct (pair_up gss) as (pl & st & E & HLp & HLs). set (sz := length gss) in *.
  pose proof (Nat.div_mod sz 2 ltac:(lia)) as HDM. pose proof (Nat.mod_upper_bound sz 2 ltac:(lia)) as HMB.
  set (end_ := if negb (sz mod 2 =? 0) then length pre + sz * gs - gs else length pre + sz * gs).
  assert (Hend : end_ = length pre + 2 * (sz / 2) * gs). { unfold end_. destruct (Nat.eqb_spec (sz mod 2) 0); simpl negb; cbv iota; nia. }
  clearbody end_.
  assert (HPL : Forall (pair_len gs) pl).
  { apply Forall_forall. intros [a b] Hab. split; apply Hlen; rewrite E; apply in_or_app; left; unfold unpair; apply in_flat_map; exists (a, b); simpl; auto. }
  assert (HST : forall g, In g st -> length g = gs). { intros g Hg. apply Hlen. rewrite E. apply in_or_app. auto. }
  apply wp_bind. reshape (pre ++ map Val (concat (map glue pl)) ++ map Val (concat st) ++ post). { rewrite E, concat_app, concat_unpair. solve_app. }
  apply pair_loop_wp; auto. { rewrite HLp. exact Hend. } { lia. }
  set (pl1 := map (ordered_pair gs) pl).
  assert (HPL1 : Forall (pair_len gs) pl1). { unfold pl1. apply Forall_map. eapply Forall_impl; [|exact HPL]. intros [a b] [Ha Hb]. unfold ordered_pair, pair_len in *. simpl in *. destruct (lt _ _); auto. }
  assert (HO1 : ord -> Forall (fun q => le (lastk gs (fst q)) (lastk gs (snd q))) pl1).
  { intros Ho. unfold pl1. apply Forall_map. apply Forall_forall. intros [a b] _. unfold ordered_pair. simpl. destruct (lt (lastk gs b) (lastk gs a)) eqn:Ec; simpl; auto. apply lt_le; auto. }
  assert (HPU1 : Permutation (unpair pl) (unpair pl1)).
  { unfold pl1. clear. induction pl as [|[a b] l IHl]; simpl; auto. unfold ordered_pair at 1. simpl. destruct (lt _ _); simpl; auto. eapply Permutation_trans; [apply perm_swap|]. auto. }
  assert (HLp1 : length pl1 = sz / 2) by (unfold pl1; rewrite map_length; auto).
  apply wp_bind. eapply wp_mono.
  { replace end_ with (length pre + length (map glue pl1) * (2 * gs)) by (rewrite map_length, HLp1; nia).
    apply (IH (2 * gs) (map glue pl1) pre (map Val (concat st) ++ post) cap p); auto; try lia.
    - intros g Hg. apply in_map_iff in Hg as (q & <- & Hq). apply Forall_forall with (x := q) in HPL1; auto. destruct HPL1. unfold glue. rewrite app_length. lia.
    - rewrite map_length, HLp1. lia.
    - rewrite map_length, HLp1. lia. }
  intros p1 m (HPR1 & gss1 & HP1 & -> & HS1). specialize (HPR1 ltac:(lia)).
  apply Permutation_sym in HP1. apply Permutation_map_inv in HP1 as (pl2 & -> & HP2).
  assert (HPL2 : Forall (pair_len gs) pl2) by (eapply Permutation_Forall; eauto).
  assert (HO2 : ord -> Forall (fun q => le (lastk gs (fst q)) (lastk gs (snd q))) pl2) by (intros Ho; eapply Permutation_Forall; eauto).
  assert (HLp2 : length pl2 = sz / 2) by (rewrite <- (Permutation_length HP2); auto).
  set (gss2 := unpair pl2 ++ st).
  assert (HPg : Permutation gss gss2). { unfold gss2. rewrite E. apply Permutation_app_tail. eapply Permutation_trans; [exact HPU1|]. now apply unpair_perm. }
  assert (HL2 : length gss2 = sz) by (rewrite <- (Permutation_length HPg); auto).
  assert (Hlen2 : forall g, In g gss2 -> length g = gs). { intros g Hg. apply Hlen. eapply Permutation_in; [apply Permutation_sym|]; eauto. }
  reshape (pre ++ map Val (concat gss2) ++ post). { unfold gss2. rewrite concat_app, concat_unpair. solve_app. }
  set (m := pre ++ map Val (concat gss2) ++ post).
  set (key := fun j => lastk gs (grp gss2 j)).
  assert (Hm : forall j, j < sz -> nth_error m (length pre + j * gs + (gs - 1)) = Some (Val (key j))).
  { intros j Hj. unfold m, key. destruct (nth_split gss2 [] ltac:(rewrite HL2; exact Hj)) as (g1 & g2 & Eg & Lg).
    fold (grp gss2 j) in Eg. set (g := grp gss2 j) in *. clearbody g. rewrite Eg in *.
    destruct (group_split gs g Hgs) as (g' & Eg' & Lg'). { apply Hlen2. apply in_or_app. right. now left. }
    set (k := lastk gs g) in *. clearbody k. rewrite Eg'.
    rewrite concat_app. simpl. replace (pre ++ map Val (concat g1 ++ (g' ++ [k]) ++ concat g2) ++ post) with ((pre ++ map Val (concat g1 ++ g')) ++ Val k :: map Val (concat g2) ++ post) by solve_app.
    rewrite nth_error_app2; rewrite app_length, map_length, app_length, (concat_length_const gs) by (intros; apply Hlen2; apply in_or_app; auto).
    - rewrite Lg, Lg'. replace (length pre + j * gs + (gs - 1) - (length pre + (j * gs + (gs - 1)))) with 0 by lia. reflexivity.
    - lia. }
  assert (Ke : forall i, i < sz / 2 -> key (2 * i) = lastk gs (fst (nth i pl2 ([], [])))). { intros i Hi. unfold key, grp, gss2. rewrite unpair_nth_even by lia. reflexivity. }
  assert (Ko : forall i, i < sz / 2 -> key (2 * i + 1) = lastk gs (snd (nth i pl2 ([], [])))). { intros i Hi. unfold key, grp, gss2. rewrite unpair_nth_odd by lia. reflexivity. }
  assert (HLE : ord -> forall k, 2 * k + 1 < sz -> le (key (2 * k)) (key (2 * k + 1))).
  { intros Ho k Hk. rewrite Ke, Ko by lia. apply HO2 in Ho. rewrite Forall_forall in Ho. apply Ho. apply nth_In. lia. }
  assert (HSC : ord -> sorted lt (map key (chain_groups (sz / 2)))).
  { intros Ho. specialize (HS1 Ho). unfold chain_groups. cbn [map]. rewrite map_map.
    assert (map (fun k => key (2 * k + 1)) (seq 0 (sz / 2)) = map (lastk (2 * gs)) (map glue pl2)) as EM.
    { rewrite map_map. rewrite <- HLp2. transitivity (map (fun k => lastk (2 * gs) (glue (nth k pl2 ([], [])))) (seq 0 (length pl2))).
      - apply map_ext_in. intros k Hk. apply in_seq in Hk. rewrite Ko by lia.
        assert (pair_len gs (nth k pl2 ([], []))) as [L1 L2]. { rewrite Forall_forall in HPL2. apply HPL2. apply nth_In. lia. }
        unfold lastk, glue. rewrite app_nth2 by lia. rewrite L1. f_equal. lia.
      - clear. induction pl2 as [|x l IHl]; auto. simpl. f_equal. rewrite <- seq_shift, map_map. exact IHl. }
    rewrite EM.
    apply sorted_cons. split; auto. intros b Hb. rewrite <- EM in Hb. apply in_map_iff in Hb as (k & <- & Hk). apply in_seq in Hk.
    apply (le_trans lt (HORD Ho)) with (y := key 1). { apply (HLE Ho 0). lia. }
    destruct k as [|k]. { apply le_refl; auto. }
    rewrite <- EM in HS1. replace (sz / 2) with (S (sz / 2 - 1)) in HS1 by lia. cbn [seq map] in HS1. apply sorted_cons in HS1 as [HS1 _]. apply HS1.
    apply in_map_iff. exists (S k). split; [reflexivity|]. apply in_seq. lia. }
  apply wp_bind. eapply (make_chain_wp comp proj ord HORD gs (length pre) sz cap key m Hgs Hle); eauto.
  intros pend p2 js0 HC0. apply wp_bind. eapply (insert_pend_wp comp proj ord HORD gs (length pre) sz cap key m Hgs Hle Hm); eauto.
  intros p3 js (ids & C1 & C2 & C3 & C4 & C5 & C6 & C7 & C8 & _). simpl in C7. rewrite app_nil_r in C7.
  assert (HLids : length ids = sz). { rewrite (Forall2_length C6). rewrite (Permutation_length C7). apply seq_length. }
  apply wp_bind. unfold m. eapply wp_mono.
  { rewrite <- HL2. eapply (move_chain_wp gs gss2 Hlen2).
    - exact C1.
    - rewrite HL2. exact C6.
    - eapply Permutation_NoDup; [apply Permutation_sym; exact C7|apply seq_NoDup].
    - rewrite HL2. rewrite (Permutation_length C7). apply seq_length. }
  intros _ m' ->. apply wp_bind. eapply delete_list_wp; eauto.
  { intros j Hj. destruct (Forall2_in_l _ _ _ _ _ _ C6 Hj) as (k & (HV & _)). rewrite HV. discriminate. }
  intros p4 D1 D2 D3 D4.
  assert (HRES : exists gss', Permutation gss gss' /\ pre ++ map Val (concat (map (grp gss2) js)) ++ post = pre ++ map Val (concat gss') ++ post /\ (ord -> sorted lt (map (lastk gs) gss'))).
  { exists (map (grp gss2) js). cj; auto.
    - eapply Permutation_trans; [exact HPg|]. apply map_nth_perm. rewrite HL2. exact C7.
    - intros Ho. rewrite map_map. exact (C8 Ho). }
  destruct (Nat.ltb_spec 1 gs) as [H1|H1]; [|apply wp_ret; split; [lia|exact HRES]].
  apply reset_nodes_wp; try lia.
  - intros j Hj. rewrite D2, C5 in *. destruct (D4 j) as (F1 & _ & F3); [lia| |].
    { intros Hi. apply (Permutation_in _ C3), in_seq in Hi. lia. }
    rewrite F1. rewrite HLids in C2.
    assert (forall k a f, freelist (nodes p3) f (seq a k) -> a <= j < a + k -> nxt (nodes p3) j = if j =? a + k - 1 then None else Some (S j)) as HFL.
    { clear. induction k as [|k IHk]; intros a f H Hj; [lia|]. simpl in H. destruct H as (-> & _ & _ & H).
      destruct (Nat.eq_dec j a) as [->|Hja].
      - destruct k as [|k]; simpl in H. { rewrite H. destruct (Nat.eqb_spec a (a + 1 - 1)); auto; lia. } destruct H as (-> & _). destruct (Nat.eqb_spec a (a + S (S k) - 1)); auto; lia.
      - rewrite (IHk (S a) _ H) by lia. replace (S a + k - 1) with (a + S k - 1) by lia. reflexivity. }
    rewrite (HFL _ _ _ C2) by lia. replace (sz + (cap - sz) - 1) with (cap - 1) by lia. reflexivity.
  - intros j Hj. rewrite D2, C5 in *. destruct (in_dec Nat.eq_dec j ids) as [Hi|Hi]; auto.
    destruct (D4 j) as (_ & _ & ->); auto. rewrite HLids in C2.
    assert (sz <= j). { destruct (Nat.lt_ge_cases j sz); auto. destruct Hi. apply (Permutation_in _ (Permutation_sym C3)). apply in_seq. lia. }
    assert (forall k a f, freelist (nodes p3) f (seq a k) -> a <= j < a + k -> vl (nodes p3) j = Raw) as HFL.
    { clear. induction k as [|k IHk]; intros a f H Hj; [lia|]. simpl in H. destruct H as (-> & _ & HV & H).
      destruct (Nat.eq_dec j a) as [->|Hja]; auto. apply (IHk (S a) _ H). lia. }
    apply (HFL _ _ _ C2). lia.
  - intros p' HPR'. rewrite D2, C5 in HPR'. split; auto.
Qed.
End Sort.

Section Statements.
Context {A T : Type} (comp : T -> T -> bool) (proj : A -> T).
Notation lt := (by_proj comp proj).

Lemma merge_insertion_runs : forall ord : Prop, (ord -> strict_weak_order lt) -> runs (sorting_rel comp proj ord) (merge_insertion_sorter comp proj).
Proof.
  intros ord HORD pre xs post. unfold merge_insertion_sorter, merge_insertion_sort. replace (length pre + length xs - length pre) with (length xs) by lia.
  destruct (Nat.ltb_spec (length xs) 2).
  { exists xs. split; [reflexivity|]. split; auto. intros _. destruct xs as [|x [|y xs]]; [apply sorted_nil|apply sorted_one|simpl in H; lia]. }
  match goal with |- exists ys, ?c ?m = _ /\ _ => assert (wp c (fun _ m' => exists ys, m' = pre ++ map Val ys ++ post /\ sorting_rel comp proj ord xs ys) m) as HG end.
  2:{ apply wp_ok in HG as ([] & m' & E & ys & -> & HR). eauto. }
  destruct xs as [|d xs0] eqn:EX; [simpl in H; lia|]. rewrite <- EX in *. clear EX xs0.
  apply wp_bind. apply new_pool_wp; [lia|]. intros p HP.
  set (gss := map (fun x : A => [x]) xs). assert (HC : concat gss = xs). { unfold gss. clear. induction xs; simpl; congruence. }
  assert (HL : length gss = length xs) by (unfold gss; apply map_length).
  apply wp_bind. apply wp_eq_mem with (pre ++ map Val (concat gss) ++ post); [now rewrite HC|]. replace (length pre + length xs) with (length pre + length gss * 1) by lia. eapply wp_mono.
  { apply (impl_wp comp proj ord HORD d) with (cap := length xs); try lia; auto. intros g Hg. unfold gss in Hg. apply in_map_iff in Hg as (? & <- & _). reflexivity. }
  intros p' m (_ & gss' & HPm & -> & HS). apply wp_ret. unfold gss in HPm. apply Permutation_sym, Permutation_map_inv in HPm as (ys & -> & HPy).
  assert (concat (map (fun x : A => [x]) ys) = ys) as E by (clear; induction ys; simpl; congruence). rewrite E. exists ys. split; auto. split; auto.
  intros Ho. specialize (HS Ho). rewrite map_map in HS. assert (map (fun x : A => lastk d 1 [x]) ys = ys) as E2 by (clear; unfold lastk; induction ys; simpl in *; congruence).
  rewrite E2 in HS. exact HS.
Qed.

Lemma merge_insertion_sorts : strict_weak_order comp -> sorts lt (merge_insertion_sorter comp proj).
Proof. intros HC. apply sorts_runs; auto. apply merge_insertion_runs. intros _. now apply swo_by_proj. Qed.
Lemma merge_insertion_permutes : permutes (merge_insertion_sorter comp proj).
Proof. apply (proj1 (permutes_runs comp proj _)). apply merge_insertion_runs. tauto. Qed.
End Statements.
