(** melsort sorts. *)
From Coq Require Import List Arith Lia Permutation Bool.
From Verif Require Import Spec.Order Spec.Sorts Lang.Mem Proofs.Wp Proofs.OrderLib Model.Indirect Proofs.Indirect Model.Select Proofs.Select Model.FixedList Model.Mel
  Proofs.FixedList Proofs.ListPath Proofs.ListMerge Proofs.Encroach Proofs.ListRounds Proofs.ListMoves Proofs.ListEdges.
Import ListNotations.
Local Arguments nth_error : simpl never.
Local Arguments upd : simpl never.
Local Arguments Nat.mul : simpl never.

(** Lists whose links to the previous nodes may be wrong, but for those of the sentinels. *)
Definition wlists {V} (ns : list (list_node V)) (lists : list nat) (L : list (list nat)) : Prop :=
  Forall2 (fun s ids => fwd ns (s :: ids ++ [s]) /\ exists b, prv ns s = Some b /\ In b (s :: ids)) lists L /\
  NoDup (lists ++ concat L) /\ (forall x, In x (lists ++ concat L) -> x < length ns).

Lemma Forall2_imp : forall X Y (R R' : X -> Y -> Prop) l l', (forall x y, R x y -> R' x y) -> Forall2 R l l' -> Forall2 R' l l'.
Proof. intros X Y R R' l l' H HF. induction HF; constructor; auto. Qed.

Lemma lcoll_wlists : forall V (ns : list (list_node V)) lists L, lcoll ns lists L -> wlists ns lists L.
Proof.
  intros V ns lists L (HC & ND). split; [|split; auto].
  - clear ND. induction HC as [|s ids lists L H HC IH]; constructor; auto. split. { apply chain_path in H as (_ & _ & H). apply path_fwd. exact H. }
    exists (lst_or s ids). split; [now apply chain_prev_end|apply lst_or_in].
  - apply chains_bound. exact HC.
Qed.

Section Mel.
Context {A T : Type} (comp : T -> T -> bool) (proj : A -> T).
Local Notation lt := (by_proj comp proj).
Hypothesis HW : strict_weak_order lt.
Implicit Types (p : node_pool A) (L : list (list nat)) (lists : list nat).

Section Fixed.
Variable v : nat -> A.
Local Notation ltn := (fun x y : nat => comp (proj (v x)) (proj (v y))).

Lemma HWN : strict_weak_order ltn.
Proof. destruct HW as [H1 H2 H3]. constructor; intros; [apply (H1 (v x))|eapply (H2 (v x)); eauto|eapply (H3 (v x)); eauto]. Qed.

Lemma final_move_wp : forall p lists L first pre cs post (Q : list nat * node_pool A -> mem A -> Prop) m, wlists (nodes p) lists L -> L <> [] -> length L <= 2 -> Forall (sorted ltn) L ->
  (forall x, In x (concat L) -> vl (nodes p) x = Val (v x)) -> m = pre ++ cs ++ post -> length cs = length (concat L) -> Forall filled cs -> first = length pre ->
  (forall p' out, emptied p p' (concat L) -> Permutation out (concat L) -> sorted ltn out -> Q (lists, p') (pre ++ map Val (map v out) ++ post)) ->
  wp (match lists with
  | [l1; l2] =>
      let* b1 := list_begin p l1 in
      let* b2 := list_begin p l2 in
      let* p := list_merge_move comp proj p b1 l1 b2 l2 first in ret (lists, p)
  | [l] =>
      let* b := list_begin p l in
      let* (p, _) := list_move p b l first in ret (lists, p)
  | _ => ret (lists, p)
  end) Q m.
Proof.
  intros p lists L first pre cs post Q m (HC & ND & HB) HN HL2 HS HV -> HL HF -> HQ. pose proof (Forall2_len _ _ _ _ _ HC) as HLE.
  destruct L as [|l1 [|l2 [|l3 L]]]; [congruence| | |simpl in HL2; lia].
  - destruct lists as [|s1 [|? ?]]; try discriminate. inversion HC as [|? ? ? ? [C1 _] _]; subst. apply Forall_cons_iff in HS as [HS _]. cbn [concat] in *. rewrite app_nil_r in *.
    apply wp_bind. eapply wp_list_next. { apply (fwd_nx0 _ _ _ _ C1). }
    apply wp_bind. eapply list_move_wp with (l := l1); eauto.
    + destruct l1; [exact I|]. apply C1.
    + intros x Hx. apply HB. apply in_or_app. auto.
    + intros p' EM. apply wp_ret. apply HQ; auto.
  - destruct lists as [|s1 [|s2 [|? ?]]]; try discriminate. inversion HC as [|? ? ? ? [C1 _] HC']; subst. inversion HC' as [|? ? ? ? [C2 _] _]; subst.
    apply Forall_cons_iff in HS as [HS1 HS]. apply Forall_cons_iff in HS as [HS2 _]. cbn [concat] in *. rewrite app_nil_r in *.
    apply wp_bind. eapply wp_list_next. { apply (fwd_nx0 _ _ _ _ C1). } apply wp_bind. eapply wp_list_next. { apply (fwd_nx0 _ _ _ _ C2). }
    apply wp_bind. eapply list_merge_move_wp with (v := v) (l1 := l1) (l2 := l2); eauto.
    + destruct l1; [exact I|]. apply C1.
    + destruct l2; [exact I|]. apply C2.
    + intros x Hx. apply HB. apply in_or_app. auto.
    + intros p' EM. apply wp_ret. apply HQ; auto. { symmetry. apply merge_perm. } apply merge_sorted; auto. apply HWN.
Qed.

Lemma merge_encroaching_lists_wp : forall p lists L first with_edges pre cs post (Q : list nat * node_pool A -> mem A -> Prop) m,
  lcoll (nodes p) lists L -> L <> [] -> enc comp proj v L -> (forall x, In x (concat L) -> vl (nodes p) x = Val (v x)) ->
  m = pre ++ cs ++ post -> length cs = length (concat L) -> Forall filled cs -> first = length pre ->
  (forall p' lists' L' out, wlists (nodes p') lists' L' -> Permutation (concat L') (concat L) -> Permutation out (concat L) -> sorted ltn out ->
     (forall j, In j (concat L) -> vl (nodes p') j = Moved) -> (forall j, j < length (nodes p) -> ~ In j (concat L) -> vl (nodes p') j = vl (nodes p) j) ->
     (with_edges = false -> lcoll (nodes p') lists' L' /\ incl lists' lists /\ length (nodes p') = S (length (nodes p)) /\ capacity p' = capacity p /\ first_free p' = first_free p /\
        (forall j, j < length (nodes p) -> ~ In j (lists ++ concat L) -> nxt (nodes p') j = nxt (nodes p) j /\ prv (nodes p') j = prv (nodes p) j)) ->
     Q (lists', p') (pre ++ map Val (map v out) ++ post)) ->
  wp (merge_encroaching_lists comp proj p lists first with_edges) Q m.
Proof.
  intros p lists L first with_edges pre cs post Q m HC HN HE HV -> HLC HFC -> HQ. unfold merge_encroaching_lists.
  destruct (new_list p) as [e p1] eqn:EN. destruct (new_list_chain _ _ _ EN) as (Ee & C1 & LN & F1 & CP & FR).
  assert (HB : forall j, In j (lists ++ concat L) -> j < e). { rewrite Ee. apply chains_bound. apply HC. }
  destruct HC as [HC ND].
  assert (HC1 : Forall2 (chain (nodes p1)) lists L). { eapply chains_frame; [exact HC|lia|]. intros j Hj. destruct (FR j) as (-> & -> & _); auto. }
  assert (HV1 : forall x, In x (concat L) -> vl (nodes p1) x = Val (v x)). { intros x Hx. destruct (FR x) as (_ & _ & ->); auto. apply HB. apply in_or_app. auto. }
  assert (NDe : NoDup (e :: lists ++ concat L)). { constructor; auto. intros Hi. apply HB in Hi. lia. }
  destruct with_edges.
  - assert (HES : est (nodes p1) lists L e []).
    { split; auto. split; [apply NoDup_cnt; intros j; clear - NDe; nodup NDe j|]. split; [exact I|]. intros x [<-|[]]. lia. }
    apply wp_bind. eapply extract_edges_wp with (v := v); eauto. intros p2 lists2 L2 E SP2 HC2 ND2 HF2 HP2 HB2 HG2 HSE HNE HPM.
    assert (HVA : forall x, In x (concat L) -> vl (nodes p2) x = Val (v x)). { intros x Hx. destruct SP2 as (_ & _ & _ & ->). auto. }
    assert (HVE : forall x, In x (E ++ concat L2) -> vl (nodes p2) x = Val (v x)). { intros x Hx. apply HVA. apply (Permutation_in _ (Permutation_sym HPM)). exact Hx. }
    assert (HLEN : length (concat L) = length (E ++ concat L2)) by now apply Permutation_length.
    apply wp_bind. eapply merge_pairwise_wp with (v := v) (L := L2); [exact HWN|split; [exact HC2|apply NoDup_cnt; intros j; clear - ND2; nodup ND2 j]|exact HG2| |].
    { intros x Hx. apply HVE. apply in_or_app. auto. }
    intros p3 lists3 L3 SP3 HC3 HG3 HP3 HI3 HL3 _ FR3.
    assert (HFE : forall j, In j (e :: E) -> nxt (nodes p3) j = nxt (nodes p2) j /\ prv (nodes p3) j = prv (nodes p2) j).
    { intros j Hj. apply FR3. intros Hi. clear - ND2 Hj Hi. apply in_app_or in Hi as [Hi|Hi]; nodup ND2 j. }
    assert (HF3 : fwd (nodes p3) (e :: E ++ [e])).
    { eapply fwd_frame; [exact HF2|]. intros j Hj. apply HFE. change (e :: E ++ [e]) with ((e :: E) ++ [e]) in Hj. rewrite removelast_last in Hj. exact Hj. }
    assert (HPV3 : prv (nodes p3) e = Some (lst_or e E)). { rewrite (proj2 (HFE e (or_introl eq_refl))). exact HP2. }
    assert (HBE : forall x, In x (e :: E) -> x < length (nodes p3)). { intros x Hx. destruct SP3 as (-> & _). auto. }
    assert (HCP3 := cnt_perm _ _ HP3).
    assert (NDL : NoDup (lists3 ++ concat L3)) by apply HC3.
    assert (ND3 : NoDup (lists3 ++ concat L3 ++ e :: E)).
    { apply NoDup_cnt. intros j. specialize (HCP3 j). assert (cnt (e :: E) j <= 1) by (clear - ND2; nodup ND2 j).
      destruct (in_dec Nat.eq_dec j (e :: E)) as [Hj|Hj].
      - assert (~ In j lists2) as Hj2. { intros Hi. clear - ND2 Hj Hi. nodup ND2 j. } assert (~ In j lists3) as Hj3 by (intros Hi; apply Hj2, HI3, Hi).
        assert (~ In j (concat L2)) as Hj4. { intros Hi. clear - ND2 Hj Hi. nodup ND2 j. }
        rewrite In_cnt in Hj3, Hj4. rewrite !cnt_app. lia.
      - rewrite In_cnt in Hj. rewrite NoDup_cnt in NDL. specialize (NDL j). rewrite !cnt_app in *. lia. }
    assert (HV3 : forall x, In x (concat L) -> vl (nodes p3) x = Val (v x)). { intros x Hx. destruct SP3 as (_ & _ & _ & ->). auto. }
    assert (HPA : Permutation (concat L) (E ++ concat L3)) by (rewrite HPM, HP3; reflexivity).
    assert (HLN3 : length (nodes p3) = length (nodes p1)). { destruct SP2 as (E2 & _), SP3 as (E3 & _). congruence. }
    assert (HVL3 : forall j, vl (nodes p3) j = vl (nodes p1) j). { intros j. destruct SP2 as (_ & _ & _ & E2), SP3 as (_ & _ & _ & E3). congruence. }
    assert (HVP : forall j, j < length (nodes p) -> vl (nodes p1) j = vl (nodes p) j). { intros j Hj. apply FR. lia. }
    apply wp_bind. assert (HLL := Forall2_len _ _ _ _ _ (proj1 HC3)).
    destruct (Nat.eqb_spec (length lists3) 0) as [Hz|Hz].
    + (* only edges *)
      apply wp_ret. destruct L3; [|simpl in HLL; lia]. cbn [concat] in *. rewrite app_nil_r in HPA.
      change (wp (match [e] with
        | [l1; l2] => let* b1 := list_begin p3 l1 in let* b2 := list_begin p3 l2 in let* p := list_merge_move comp proj p3 b1 l1 b2 l2 (length pre) in ret ([e], p)
        | [l] => let* b := list_begin p3 l in let* (p, _) := list_move p3 b l (length pre) in ret ([e], p)
        | _ => ret ([e], p3) end) Q (pre ++ cs ++ post)).
      assert (HWL : wlists (nodes p3) [e] [E]).
      { split; [|split]. - constructor; [|constructor]. split; auto. exists (lst_or e E). split; auto. apply lst_or_in.
        - cbn [concat]. rewrite app_nil_r. apply NoDup_cnt. intros j. clear - ND3. nodup ND3 j.
        - cbn [concat]. rewrite app_nil_r. exact HBE. }
      eapply final_move_wp with (L := [E]); eauto.
      * discriminate.
      * cbn [concat]. rewrite app_nil_r. intros x Hx. apply HV3. apply (Permutation_in _ (Permutation_sym HPA)). exact Hx.
      * cbn [concat]. rewrite app_nil_r, HLC. now apply Permutation_length.
      * cbn [concat]. rewrite app_nil_r. intros p4 out (M1 & M2 & M3 & M4 & M5 & M6) HPo HSo. apply HQ with (L' := [E]) (out := out); auto.
        -- destruct HWL as (W1 & W2 & W3). split; [|split; auto].
           ++ inversion W1 as [|? ? ? ? [W4 (b & W5 & W6)] W7]; subst. constructor; [|constructor]. split. { eapply fwd_frame; [exact W4|]. intros j _. apply M4. } exists b. rewrite (proj2 (M4 _)). auto.
           ++ intros x Hx. rewrite M1. auto.
        -- cbn [concat]. rewrite app_nil_r. now symmetry.
        -- rewrite HPo. now symmetry.
        -- intros j Hj. apply M5. apply (Permutation_in _ HPA). exact Hj.
        -- intros j Hj Hn. rewrite M6, HVL3, HVP; auto. intros Hi. apply Hn. apply (Permutation_in _ (Permutation_sym HPA)). exact Hi.
        -- discriminate.
    + (* the edges are merged with the last list *)
      destruct (exists_last (l := L3)) as (L4 & b & ->). { intros ->. simpl in HLL. lia. }
      destruct HC3 as [HC3 _]. assert (HC3' := HC3). apply Forall2_at in HC3' as (la & s & lb & El & Hla & HCs & HCa & HCb). inversion HCb; subst lb. clear HCb.
      rewrite app_length in HLL. simpl in HLL.
      apply wp_bind. eapply wp_rd. { rewrite El. apply nth_mid. rewrite app_length. simpl. lia. }
      apply Forall_app in HG3 as [HG4 HGb]. apply Forall_cons_iff in HGb as [[Hb1 Hb2] _].
      assert (CL3 : concat (L4 ++ [b]) = concat L4 ++ b) by (rewrite concat_app; cbn [concat]; now rewrite app_nil_r). rewrite CL3 in *.
      apply wp_bind. eapply merge_lists_unsafe_wp with (v := v) (ids := b) (oids := E); eauto.
      { rewrite El in ND3. apply NoDup_cnt. intros j. clear - ND3. nodup ND3 j. }
      { intros x Hx. apply HV3. apply (Permutation_in _ (Permutation_sym HPA)). rewrite !in_app_iff in *. tauto. }
      intros p4 K1 K2 K3 K4 K5 K6 K7 K8. apply wp_bind. apply destroy_empty_wp; auto. apply wp_ret.
      assert (HMP := merge_perm ltn b E). assert (HMC := cnt_perm _ _ HMP).
      assert (HWL : wlists (nodes p4) lists3 (L4 ++ [merge ltn b E])).
      { split; [|split].
        - rewrite El. apply Forall2_app.
          + assert (Forall2 (chain (nodes p4)) la L4) as HCa4.
            { eapply chains_frame; [exact HCa|lia|]. intros j Hj. apply K8. intros Hi. rewrite El in ND3. clear - ND3 Hi Hj. destruct Hi as [<-|[<-|Hi]]; apply in_app_or in Hj as [Hj|Hj]; try (apply in_app_or in Hi as [Hi|Hi]);
              first [nodup ND3 j|nodup ND3 s|nodup ND3 e]. }
            apply (lcoll_wlists _ (nodes p4) la L4). split; auto. apply NoDup_cnt. intros j. rewrite El in ND3. clear - ND3. nodup ND3 j.
          + constructor; [|constructor]. split; [exact K5|]. exists (lst_or s b). split; auto. destruct (in_inv (lst_or_in s b)) as [E1|E1]; [now left|right]. apply (Permutation_in _ HMP). apply in_or_app. auto.
        - apply NoDup_cnt. intros j. specialize (HMC j). rewrite cnt_app in HMC. clear - ND3 HMC. nodup ND3 j.
        - intros x Hx. rewrite K1. rewrite concat_app in Hx. cbn [concat] in Hx. rewrite app_nil_r in Hx. rewrite !in_app_iff in Hx. destruct Hx as [Hx|[Hx|Hx]].
          + eapply chains_bound; [exact HC3|]. apply in_or_app. auto.
          + eapply chains_bound; [exact HC3|]. apply in_or_app. right. rewrite CL3. apply in_or_app. auto.
          + apply (Permutation_in _ (Permutation_sym HMP)) in Hx. apply in_app_or in Hx as [Hx|Hx]; [|apply HBE; now right]. eapply chains_bound; [exact HC3|]. apply in_or_app. right. rewrite CL3. apply in_or_app. auto. }
      assert (CL4 : concat (L4 ++ [merge ltn b E]) = concat L4 ++ merge ltn b E) by (rewrite concat_app; cbn [concat]; now rewrite app_nil_r).
      assert (HPF : Permutation (concat L) (concat (L4 ++ [merge ltn b E]))).
      { rewrite HPA, CL4, <- HMP. rewrite (Permutation_app_comm E). now rewrite <- app_assoc. }
      eapply final_move_wp with (L := L4 ++ [merge ltn b E]); eauto.
      * destruct L4; discriminate.
      * rewrite app_length in *. simpl in *. lia.
      * apply Forall_app. split; [eapply Forall_impl; [|exact HG4]; intros ? []; auto|]. constructor; auto. apply merge_sorted; auto. apply HWN.
      * intros x Hx. rewrite K4. apply HV3. apply (Permutation_in _ (Permutation_sym HPF)). exact Hx.
      * rewrite HLC. now apply Permutation_length.
      * intros p5 out (M1 & M2 & M3 & M4 & M5 & M6) HPo HSo. apply HQ with (L' := L4 ++ [merge ltn b E]) (out := out); auto.
        -- destruct HWL as (W1 & W2 & W3). split; [|split; auto].
           ++ eapply Forall2_imp; [|exact W1]. intros s0 ids [W4 (b0 & W5 & W6)]. split. { eapply fwd_frame; [exact W4|]. intros j _. apply M4. } exists b0. rewrite (proj2 (M4 _)). auto.
           ++ intros x Hx. rewrite M1. auto.
        -- now symmetry.
        -- rewrite HPo. now symmetry.
        -- intros j Hj. apply M5. apply (Permutation_in _ HPF). exact Hj.
        -- intros j Hj Hn. rewrite M6, K4, HVL3, HVP; auto. intros Hi. apply Hn. apply (Permutation_in _ (Permutation_sym HPF)). exact Hi.
        -- discriminate.
  - (* without edges *)
    apply wp_bind. apply wp_ret. apply wp_bind.
    assert (HG : good comp proj v L). { destruct HE as (E1 & E2 & _). apply Forall_forall. intros l Hl. rewrite Forall_forall in E1, E2. split; auto. apply sorted_nodes. auto. }
    eapply merge_pairwise_wp with (v := v) (L := L); [exact HWN|split; [exact HC1|auto]|exact HG|exact HV1|].
    intros p3 lists3 L3 SP3 HC3 HG3 HP3 HI3 HL3 HN3 FR3.
    assert (HCE : chain (nodes p3) e []).
    { eapply chain_frame; [exact C1|destruct SP3; lia|]. intros x [<-|[]]. apply FR3. intros Hi. apply HB in Hi. lia. }
    apply wp_bind. apply wp_bind. apply destroy_empty_wp; auto. apply wp_ret.
    assert (HWL := lcoll_wlists _ _ _ _ HC3). destruct SP3 as (S1 & S2 & S3 & S4).
    eapply final_move_wp with (L := L3); eauto.
    + eapply Forall_impl; [|exact HG3]. intros ? []; auto.
    + intros x Hx. rewrite S4. apply HV1. apply (Permutation_in _ HP3). exact Hx.
    + rewrite HLC. symmetry. now apply Permutation_length.
    + intros p5 out (M1 & M2 & M3 & M4 & M5 & M6) HPo HSo. 
      assert (HC5 : lcoll (nodes p5) lists3 L3). { destruct HC3 as [HC3 ND3]. split; auto. eapply chains_frame; [exact HC3|lia|]. auto. }
      apply HQ with (L' := L3) (out := out); auto.
      * apply lcoll_wlists. exact HC5.
      * now rewrite HPo.
      * intros j Hj. apply M5. apply (Permutation_in _ (Permutation_sym HP3)). exact Hj.
      * intros j Hj Hn. rewrite M6, S4. { apply FR. lia. } intros Hi. apply Hn. apply (Permutation_in _ HP3). exact Hi.
      * intros _. cj; auto; try congruence; try lia.
        intros j Hj Hn. destruct (M4 j) as [-> ->]. destruct (FR3 j Hn) as [-> ->]. destruct (FR j) as (-> & -> & _); auto. lia.
Qed.
End Fixed.

Lemma destroy_lists_weak_wp : forall {V} (p : node_pool V) lists L (Q : node_pool V -> mem A -> Prop) m, wlists (nodes p) lists L -> (forall j, In j (concat L) -> vl (nodes p) j <> Raw) ->
  (forall p' : node_pool V, Q p' m) -> wp (destroy_lists p lists) Q m.
Proof.
  intros V p lists L Q m HWL HV HQ. unfold destroy_lists.
  assert (HLE := Forall2_len _ _ _ _ _ (proj1 HWL)).
  apply wp_loop_k with (k := length lists) (I := fun k '(i, p') m' => m' = m /\ exists la lb Lb, lists = la ++ lb /\ length la = i /\ k = length lb /\ wlists (nodes p') lb Lb /\
     (forall j, In j (concat Lb) -> vl (nodes p') j <> Raw)).
  - split; auto. exists [], lists, L. cj; auto.
  - lia.
  - clear HWL HV. intros k [i p1] m1 (-> & la & lb & Lb & -> & <- & -> & HWL & HV). destruct (Nat.eqb_spec (length la) (length (la ++ lb))) as [Hi|Hi].
    + apply wp_ret. auto.
    + rewrite app_length in Hi. destruct lb as [|s lb]; [simpl in Hi; lia|]. apply wp_bind. eapply wp_rd. { now apply nth_mid. }
      destruct HWL as (W1 & W2 & W3). inversion W1 as [|? ids ? Lb' [W4 (b & W5 & W6)] W7]; subst. cbn [concat] in *.
      assert (NDs : NoDup (s :: ids)) by (apply NoDup_cnt; intros j; clear - W2; nodup W2 j).
      assert (Hin : forall x, In x (s :: ids) -> x < length (nodes p1)). { intros x Hx. apply W3. destruct Hx as [<-|Hx]; [now left|]. right. rewrite !in_app_iff. auto. }
      apply wp_bind. eapply destroy_list_wp with (ids := ids); eauto.
      { intros j Hj. apply HV. apply in_or_app. auto. }
      intros p' K1 K2 K3 K4 K5 K6 K7. apply wp_ret. exists (length lb). split; [simpl; lia|]. split; auto.
      exists (la ++ [s]), lb, Lb'. cj; auto.
      * now rewrite <- app_assoc.
      * rewrite app_length. simpl. lia.
      * split; [|split].
        -- assert (FR : forall j, In j (lb ++ concat Lb') -> nxt (nodes p') j = nxt (nodes p1) j).
           { intros j Hj. rewrite K4. destruct ids; auto. destruct (Nat.eqb_spec j b) as [->|]; auto. exfalso. clear - W2 W6 Hj. apply in_app_or in Hj as [Hj|Hj]; nodup W2 b. }
           clear - W7 FR K5. induction W7 as [|s1 ids1 lb Lb' [H1 (b1 & H2 & H3)] W7 IH]; constructor.
           ++ split. { eapply fwd_frame; [exact H1|]. intros j Hj. change (s1 :: ids1 ++ [s1]) with ((s1 :: ids1) ++ [s1]) in Hj. rewrite removelast_last in Hj. apply FR. simpl in *. rewrite !in_app_iff. tauto. }
              exists b1. rewrite K5. auto.
           ++ apply IH. intros j Hj. apply FR. simpl. rewrite !in_app_iff in *. tauto.
        -- apply NoDup_cnt. intros j. clear - W2. nodup W2 j.
        -- intros x Hx. rewrite K1. apply W3. right. rewrite !in_app_iff in *. tauto.
      * intros j Hj. rewrite K7. { apply HV. apply in_or_app. auto. } intros Hi'. clear - W2 Hj Hi'. nodup W2 j.
Qed.

(** The nodes that hold elements in melsort. *)
Definition holds_self (m : mem A) (w y : A) : Prop := w = y.

Lemma melsort_sorts : sorts lt (mel_sorter comp proj).
Proof.
  intros pre xs post. unfold mel_sorter, melsort. replace (length pre + length xs - length pre) with (length xs) by lia.
  assert (wp (if (length pre =? length pre + length xs) || (S (length pre) =? length pre + length xs) then ret tt else
    let* p := new_pool (length xs) in let '(l, p) := new_list p in let* v := take (length pre) in let* p := push_back p l v in
    let* (lists, p) := loop (S (length xs)) (fun '(it, lists, p) =>
      if it =? length pre + length xs then ret (inr (lists, p)) else let* (lists, p) := add_to_lists comp proj ret take p lists it in ret (inl (S it, lists, p))) (S (length pre), [l], p) in
    let bad_distribution := length xs <? length lists * length lists in
    let* (lists, p) := merge_encroaching_lists comp proj p lists (length pre) bad_distribution in
    let* _ := destroy_lists p lists in ret tt)
    (fun _ m' => exists ys, m' = pre ++ map Val ys ++ post /\ Permutation xs ys /\ sorted lt ys) (pre ++ map Val xs ++ post)) as H.
  2:{ apply wp_ok in H as ([] & m & E & ys & -> & HR). eauto. }
  destruct xs as [|x0 xs].
  { simpl. rewrite Nat.add_0_r, Nat.eqb_refl. simpl. apply wp_ret. exists []. cj; auto. apply sorted_nil. }
  destruct xs as [|x1 xs].
  { simpl length. rewrite Nat.add_1_r, Nat.eqb_refl, orb_true_r. apply wp_ret. exists [x0]. cj; auto. apply sorted_one. }
  remember (x1 :: xs) as xt eqn:Ext. assert (Hxt : 0 < length xt) by (subst; simpl; lia). clear Ext x1 xs. simpl length.
  destruct (Nat.eqb_spec (length pre) (length pre + S (length xt))) as [Hc|_]; [lia|]. destruct (Nat.eqb_spec (S (length pre)) (length pre + S (length xt))) as [Hc|_]; [lia|]. cbn [orb].
  apply wp_bind. apply new_pool_wp; [lia|]. intros p0 HPR. pose proof (pristine_freelist p0 (S (length xt)) ltac:(lia) HPR) as HFL.
  destruct (new_list p0) as [l p1] eqn:EN.
  apply wp_bind. reshape (pre ++ Val x0 :: map Val xt ++ post). apply wp_take_at; auto.
  unfold push_back. apply wp_bind. apply wp_bind.
  assert (HC0 : coll p0 [] [] (0 :: seq 1 (length xt))). { split; [constructor|]. split; [exact HFL|]. cbn [concat app]. change (0 :: seq 1 (length xt)) with (seq 0 (S (length xt))). apply seq_NoDup. }
  eapply coll_new; [exact HC0|exact EN|]. intros p2 HC2 LN2 CP2 VL2. apply wp_ret.
  cbn [app] in HC2.
  (* the elements are added to the lists *)
  apply wp_bind. apply wp_loop_k with (k := length xt) (I := fun k '(it, lists, p) m => exists v xa xb L fs, x0 :: xt = xa ++ xb /\ k = length xb /\ it = length pre + length xa /\
    length xb = length fs /\
    m = pre ++ repeat Moved (length xa) ++ map Val xb ++ post /\ coll p lists L fs /\ L <> [] /\ enc comp proj v L /\ Permutation (map v (concat L)) xa /\
    (forall j, In j (concat L) -> held holds_self m (nodes p) v j)).
  - exists (fun _ => x0), [x0], xt, [[0]], (seq 1 (length xt)). cj; auto.
    + simpl. lia.
    + now rewrite seq_length.
    + discriminate.
    + split; [constructor; auto; discriminate|]. split; [constructor; auto; apply sorted_one|]. split; [apply sorted_one|]. split; [apply sorted_one|]. constructor.
    + intros j [<-|[]]. exists x0. split; [|reflexivity]. rewrite VL2; auto. destruct HFL as (_ & H0 & _). exact H0.
  - lia.
  - clear HC2 LN2 CP2 VL2 p2. intros k [[it lists] p] m (v & xa & xb & L & fs & EX & -> & -> & HF & -> & HC & HN & HE & HP & HH).
    destruct (Nat.eqb_spec (length pre + length xa) (length pre + S (length xt))) as [Hi|Hi].
    + apply wp_ret. assert (xb = []) as ->. { apply (f_equal (@length A)) in EX. rewrite app_length in EX. simpl in EX. destruct xb; auto. simpl in EX. lia. }
      rewrite app_nil_r in EX. subst xa. destruct fs; [|discriminate].
      destruct HC as (HC & HFR & ND). rewrite app_nil_r in ND.
      apply wp_bind. eapply merge_encroaching_lists_wp with (v := v) (L := L) (pre := pre) (cs := repeat Moved (length (x0 :: xt))); eauto.
      * split; auto.
      * intros j Hj. destruct (HH j Hj) as (w & E1 & E2). rewrite E1. unfold holds_self in E2. now subst w.
      * rewrite repeat_length. rewrite <- (Permutation_length HP). now rewrite map_length.
      * apply Forall_forall. intros c Hc. apply repeat_spec in Hc. subst c. discriminate.
      * intros p' lists' L' out HWL HPL HPo HSo HM _ _. apply wp_bind. eapply destroy_lists_weak_wp; [exact HWL| |].
        { intros j Hj. rewrite HM; [discriminate|]. apply (Permutation_in _ HPL). exact Hj. }
        intros p3. apply wp_ret. exists (map v out). cj; auto.
        -- rewrite <- HP. apply Permutation_map. now symmetry.
        -- apply (sorted_nodes comp proj). exact HSo.
    + destruct xb as [|y xb]. { exfalso. apply (f_equal (@length A)) in EX. rewrite app_length in EX. simpl in EX. lia. }
      destruct fs as [|f fs]; [discriminate|].
      apply wp_bind. eapply add_to_lists_wp with (holds := holds_self) (after := fun m it => upd it Moved m) (made := fun _ _ => True) (L := L) (x := f) (fs := fs) (v := v) (y := y); eauto.
      * intros m w z Q ->. auto.
      * intros m it z Q Hz HQ. eapply wp_take; eauto. apply HQ; [reflexivity|exact I].
      * rewrite app_assoc. apply nth_mid. rewrite app_length, repeat_length. lia.
      * intros p' lists' L' HC' HN' HE' HP' _ HH' _ _ _. apply wp_ret. exists (length xb). split; [simpl; lia|].
        exists (fun j => if j =? f then y else v j), (xa ++ [y]), xb, L', fs. cj; auto.
        -- rewrite <- app_assoc. exact EX.
        -- rewrite app_length. simpl. lia.
        -- rewrite app_assoc. cbn [map app]. rewrite upd_at. 2:{ rewrite app_length, repeat_length. lia. } rewrite app_length. simpl length. rewrite repeat_app. solve_app.
        -- rewrite (Permutation_map _ HP'). cbn [map]. rewrite Nat.eqb_refl. rewrite <- Permutation_cons_append. constructor.
           rewrite (map_ext_in _ v); auto. intros j Hj. destruct (Nat.eqb_spec j f) as [->|]; auto. destruct HC as (_ & _ & ND). exfalso. clear - ND Hj. nodup ND f.
Qed.
End Mel.
