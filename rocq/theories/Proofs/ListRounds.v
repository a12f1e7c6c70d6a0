(** Collections of linked lists: the rounds of merges of melsort, and moving the elements back to the collection. *)
From Coq Require Import List Arith Lia Permutation Bool.
From Verif Require Import Spec.Order Lang.Mem Proofs.Wp Proofs.OrderLib Model.Indirect Proofs.Indirect Model.Select Proofs.Select Model.FixedList Model.Mel
  Proofs.FixedList Proofs.ListPath Proofs.ListMerge Proofs.Encroach.
Import ListNotations.
Local Arguments nth_error : simpl never.
Local Arguments upd : simpl never.
Local Arguments Nat.mul : simpl never.
Local Arguments Nat.div : simpl never.
Local Arguments Nat.modulo : simpl never.

Definition lcoll {V} (ns : list (list_node V)) (lists : list nat) (L : list (list nat)) : Prop :=
  Forall2 (chain ns) lists L /\ NoDup (lists ++ concat L).

Lemma frame_out_trans : forall V (a b c : list (list_node V)) l1 l2 l, frame_out a b l1 -> frame_out b c l2 -> incl l1 l -> incl l2 l -> frame_out a c l.
Proof.
  intros V a b c l1 l2 l H1 H2 I1 I2 j Hj. destruct (H2 j) as [-> ->]. { intros Hi. apply Hj. auto. } apply H1. intros Hi. apply Hj. auto.
Qed.
Lemma frame_out_refl : forall V (a : list (list_node V)) l, frame_out a a l.
Proof. intros V a l j Hj. auto. Qed.
Lemma frame_out_incl : forall V (a b : list (list_node V)) l l', frame_out a b l -> incl l l' -> frame_out a b l'.
Proof. intros V a b l l' H HI j Hj. apply H. auto. Qed.

Lemma destroy_empty_wp : forall {A V} (p : node_pool V) s (Q : node_pool V -> mem A -> Prop) m, chain (nodes p) s [] -> Q p m -> wp (destroy_list p s) Q m.
Proof.
  intros A V p s Q m HC HQ. unfold destroy_list. apply wp_bind. apply rd_node. { apply HC. now left. } intros n En _ _.
  apply wp_bind. eapply wp_pointee. { rewrite En. apply (chain_begin _ _ _ HC). } cbn [fst_or hd]. rewrite Nat.eqb_refl. apply wp_ret. exact HQ.
Qed.

Section Rounds.
Context {A T : Type} (comp : T -> T -> bool) (proj : A -> T).
Variable v : nat -> A.
Local Notation ltn := (fun x y : nat => comp (proj (v x)) (proj (v y))).
Hypothesis HW : strict_weak_order ltn.
Implicit Types (p : node_pool A) (L : list (list nat)) (lists : list nat).

Definition same_pool p p' : Prop :=
  length (nodes p') = length (nodes p) /\ capacity p' = capacity p /\ first_free p' = first_free p /\ (forall j, vl (nodes p') j = vl (nodes p) j).
Lemma same_pool_refl : forall p, same_pool p p.
Proof. intros p. repeat split. Qed.
Lemma same_pool_trans : forall p1 p2 p3, same_pool p1 p2 -> same_pool p2 p3 -> same_pool p1 p3.
Proof. intros p1 p2 p3 (A1 & A2 & A3 & A4) (B1 & B2 & B3 & B4). unfold same_pool. cj; congruence. Qed.

Lemma lcoll_merge : forall p lists X a Y b Z, lcoll (nodes p) lists (X ++ a :: Y ++ b :: Z) -> a <> [] -> b <> [] ->
  (forall x, In x (a ++ b) -> vl (nodes p) x = Val (v x)) ->
  exists s o, nth_error lists (length X) = Some s /\ nth_error lists (length X + S (length Y)) = Some o /\
    forall (Q : node_pool A -> mem A -> Prop) m,
    (forall p', same_pool p p' -> lcoll (nodes p') lists (X ++ merge ltn a b :: Y ++ [] :: Z) ->
       frame_out (nodes p) (nodes p') (lists ++ concat (X ++ a :: Y ++ b :: Z)) -> chain (nodes p') o [] -> Q p' m) -> wp (merge_lists comp proj p s o) Q m.
Proof.
  intros p lists X a Y b Z (HC & ND) Ha Hb HV.
  assert (HC' := HC). apply Forall2_at in HC' as (x & s & yz & E1 & HLx & HCs & Hx & Hyz).
  apply Forall2_at in Hyz as (y & o & z & E2 & HLy & HCo & Hy & Hz). subst lists yz.
  exists s, o. cj. { now apply nth_mid. } { change (x ++ s :: y ++ o :: z) with (x ++ (s :: y) ++ o :: z). rewrite app_assoc. apply nth_mid. rewrite app_length. simpl. lia. }
  intros Q m HQ.
  assert (HP := merge_perm ltn a b). assert (CP := cnt_perm _ _ HP).
  assert (NDm : NoDup ((x ++ s :: y ++ o :: z) ++ concat (X ++ merge ltn a b :: Y ++ [] :: Z))).
  { apply NoDup_cnt. intros j. specialize (CP j). rewrite cnt_app in CP. nodup ND j. }
  eapply merge_lists_wp with (ids := a) (oids := b); eauto.
  { apply NoDup_cnt. intros j. nodup ND j. }
  intros p' E1 E2 E3 E4 C1 C2 FR. apply HQ; auto.
  - repeat split; auto.
  - split; [|exact NDm].
    apply Forall2_app; [|constructor; [exact C1|apply Forall2_app; [|constructor; [exact C2|]]]];
      (eapply chains_frame; [eassumption|lia|]); intros j Hj; apply FR; intros [<-|[<-|Hi]]; apply in_app_or in Hj as [Hj|Hj];
      try (apply in_app_or in Hi as [Hi|Hi]); match goal with |- False => idtac end; first [nodup ND j|nodup ND s|nodup ND o].
  - eapply frame_out_incl; [exact FR|]. intros j Hj. rewrite !in_app_iff, !concat_app in *. simpl in *. rewrite !in_app_iff, !concat_app in *. simpl in *. rewrite !in_app_iff in *. tauto.
Qed.

Lemma sorted_merge : forall a b, sorted ltn a -> sorted ltn b -> sorted ltn (merge ltn a b).
Proof. intros. now apply merge_sorted. Qed.
Lemma merge_nonempty : forall a b, a <> [] -> merge ltn a b <> [].
Proof. intros a b Ha E. apply (f_equal (@length nat)) in E. rewrite merge_length in E. destruct a; [congruence|simpl in E; lia]. Qed.

Definition good L := Forall (fun l => l <> [] /\ sorted ltn l) L.

Lemma lcoll_cut : forall (ns : list (list_node A)) l1 l2 L1 L2, lcoll ns (l1 ++ l2) (L1 ++ L2) -> length l1 = length L1 -> lcoll ns l1 L1.
Proof.
  intros ns l1 l2 L1 L2 [H ND] HL. apply Forall2_app_inv_l in H as (L1' & L2' & H1 & H2 & E). apply app_inj_1 in E as [-> ->].
  2:{ apply Forall2_len in H1. lia. }
  split; auto. apply NoDup_cnt. intros j. nodup ND j.
Qed.

Lemma concat_nils : forall L, Forall (fun l => l = []) L -> concat L = [].
Proof. intros L H. induction H; simpl; auto. subst. auto. Qed.

Lemma merge_pairwise_wp : forall p lists L (Q : list nat * node_pool A -> mem A -> Prop) m, lcoll (nodes p) lists L -> good L ->
  (forall x, In x (concat L) -> vl (nodes p) x = Val (v x)) ->
  (forall p' lists' L', same_pool p p' -> lcoll (nodes p') lists' L' -> good L' -> Permutation (concat L') (concat L) -> incl lists' lists -> length L' <= 2 -> (L <> [] -> L' <> []) ->
     frame_out (nodes p) (nodes p') (lists ++ concat L) -> Q (lists', p') m) ->
  wp (merge_pairwise comp proj p lists) Q m.
Proof.
  intros p lists L Q m HC HG HV HQ. unfold merge_pairwise.
  apply wp_loop_k with (k := length lists) (I := fun k '(ls, p') m' => m' = m /\ k = length ls /\ exists L', same_pool p p' /\ lcoll (nodes p') ls L' /\ good L' /\
    Permutation (concat L') (concat L) /\ incl ls lists /\ (L <> [] -> L' <> []) /\ frame_out (nodes p) (nodes p') (lists ++ concat L)).
  - cj; auto. exists L. cj; auto using same_pool_refl, incl_refl, frame_out_refl.
  - lia.
  - clear HC HG. intros k [ls p1] m1 (-> & -> & L1 & SP & HC & HG & HP & HI & HN & FR).
    assert (HL := Forall2_len _ _ _ _ _ (proj1 HC)).
    destruct (Nat.ltb_spec 2 (length ls)) as [H2|H2].
    2:{ apply wp_ret. apply HQ with (L' := L1); auto. lia. }
    apply wp_bind.
    (* an even number of lists *)
    assert (forall Q' : list nat * node_pool A -> mem A -> Prop,
      (forall ls' p' L' h, same_pool p p' -> lcoll (nodes p') ls' L' -> good L' -> Permutation (concat L') (concat L) -> incl ls' lists -> length ls' = 2 * h -> 0 < h -> length ls' <= length ls ->
         frame_out (nodes p) (nodes p') (lists ++ concat L) -> Q' (ls', p') m) ->
      wp (if negb (length ls mod 2 =? 0) then
          let* last := rd ls (length ls - 1) in
          let* last_1 := rd ls (length ls - 2) in
          let* p := merge_lists comp proj p1 last_1 last in
          let* p := destroy_list p last in
          ret (removelast ls, p)
        else ret (ls, p1)) Q' m) as HEVEN.
    { intros Q' HQ'. pose proof (Nat.div_mod (length ls) 2 ltac:(lia)) as HD. destruct (Nat.eqb_spec (length ls mod 2) 0) as [HZ|HZ]; cbn [negb].
      - apply wp_ret. apply HQ' with (L' := L1) (h := length ls / 2); auto; lia.
      - destruct L1 as [|l1 L1 _] using rev_ind; [simpl in HL; lia|]. rewrite app_length in HL. simpl in HL.
        destruct L1 as [|l2 L1 _] using rev_ind; [simpl in HL; lia|]. rewrite app_length in HL. simpl in HL.
        rewrite <- app_assoc in *. cbn [app] in *. pose proof HG as HG'. apply Forall_app in HG as [G1 G2]. apply Forall_cons_iff in G2 as [[G2 G3] G4]. apply Forall_cons_iff in G4 as [[G4 G5] _].
        destruct (lcoll_merge p1 ls L1 l2 [] l1 []) as (s & o & Es & Eo & HM); auto.
        { intros x Hx. destruct SP as (_ & _ & _ & ->). apply HV. apply (Permutation_in _ HP). rewrite !concat_app. simpl. rewrite !in_app_iff in *. tauto. }
        apply wp_bind. eapply wp_rd. { replace (length ls - 1) with (length L1 + S (length (@nil (list nat)))) by (simpl; lia). exact Eo. }
        apply wp_bind. eapply wp_rd. { replace (length ls - 2) with (length L1) by lia. exact Es. }
        apply wp_bind. apply HM. intros p2 SP2 HC2 FR2 CO. apply wp_bind. apply destroy_empty_wp; auto. apply wp_ret.
        destruct ls as [|lo ls _] using rev_ind; [simpl in HL; lia|]. rewrite app_length in HL, HZ, HD, HQ', H2. simpl in HL, HZ, HD, HQ', H2. rewrite removelast_last.
        apply HQ' with (L' := L1 ++ [merge ltn l2 l1]) (h := length (ls ++ [lo]) / 2).
        + eapply same_pool_trans; eauto.
        + eapply lcoll_cut with (l2 := [lo]) (L2 := [[]]); [rewrite <- app_assoc; exact HC2|]. rewrite app_length. simpl. lia.
        + apply Forall_app. split; auto. constructor; auto. split; [apply merge_nonempty; auto|apply sorted_merge; auto].
        + rewrite <- HP. rewrite !concat_app. apply Permutation_app_head. cbn [concat]. rewrite !app_nil_r. symmetry. apply merge_perm.
        + intros j Hj. apply HI. apply in_or_app. auto.
        + rewrite app_length. simpl. assert ((length ls + 1) mod 2 < 2) by (apply Nat.mod_upper_bound; lia). lia.
        + rewrite app_length. simpl. assert ((length ls + 1) mod 2 < 2) by (apply Nat.mod_upper_bound; lia). lia.
        + lia.
        + eapply frame_out_trans; [exact FR|exact FR2|apply incl_refl|]. intros j Hj. apply in_app_or in Hj as [Hj|Hj].
          * apply in_or_app. left. auto.
          * apply in_or_app. right. eapply Permutation_in; [exact HP|]. exact Hj. }
    apply HEVEN. clear HEVEN. clear HC HG HP HI FR SP HN. intros ls2 p2 L2 h SP HC HG HP HI HL2 Hh HLE FR.
    clear L1 HL p1. assert (HL := Forall2_len _ _ _ _ _ (proj1 HC)).
    replace (length ls2 / 2) with h by (rewrite HL2, Nat.mul_comm, Nat.div_mul by lia; reflexivity).
    apply wp_bind.
    apply wp_loop_k with (k := h) (I := fun k '(i, p') m' => m' = m /\ k = h - i /\ i <= h /\ exists M Ha Z Hb, length M = i /\ length Z = i /\ length Ha = h - i /\ length Hb = h - i /\
      same_pool p p' /\ lcoll (nodes p') ls2 (M ++ Ha ++ Z ++ Hb) /\ Forall (fun l => l = []) Z /\ good M /\ good Ha /\ good Hb /\
      Permutation (concat (M ++ Ha ++ Z ++ Hb)) (concat L) /\ frame_out (nodes p) (nodes p') (lists ++ concat L)).
    + cj; auto; try lia. exists [], (firstn h L2), [], (skipn h L2). simpl. rewrite firstn_skipn, firstn_length, skipn_length.
      rewrite <- (firstn_skipn h L2) in HG. apply Forall_app in HG as [G1 G2]. cj; auto; try lia; constructor.
    + lia.
    + clear HC FR SP HP. intros k [i p3] m3 (-> & -> & Hi & M & Ha & Z & Hb & E1 & E2 & E3 & E4 & SP & HC & HZ & HGM & HGA & HGB & HP & FR).
      destruct (Nat.eqb_spec (h + i) (length ls2)) as [Hi'|Hi'].
      * apply wp_ret. assert (i = h) as Eih by lia. rewrite Eih in *. rewrite Nat.sub_diag in *. destruct Ha; [|discriminate]. destruct Hb; [|discriminate]. cbn [app] in *. rewrite app_nil_r in *.
        (* the empty lists are destroyed *)
        apply wp_bind. apply wp_loop_k with (k := h) (I := fun k '(i, p') m' => m' = m /\ k = h - i /\ i <= h /\ p' = p3).
        -- cj; auto; lia.
        -- lia.
        -- intros k [j p4] m4 (-> & -> & Hj & ->). destruct (Nat.eqb_spec (h + j) (length ls2)) as [Hj'|Hj'].
           ++ apply wp_ret. apply wp_ret. exists (length (firstn h ls2)). split. { rewrite firstn_length. lia. } cj; auto. exists M. cj; auto.
              ** eapply lcoll_cut with (l2 := skipn h ls2); [rewrite firstn_skipn; exact HC|]. rewrite firstn_length. lia.
              ** rewrite concat_app, (concat_nils Z HZ), app_nil_r in HP. exact HP.
              ** intros x Hx. apply HI. rewrite <- (firstn_skipn h ls2). apply in_or_app. auto.
              ** intros _ ->. simpl in E1. lia.
           ++ assert (j < length Z) as Hjz by lia. destruct (nth_some _ _ _ Hjz) as (z & Ez). apply nth_error_split in Ez as (Za & Zb & -> & HZa).
              assert (z = []) as ->. { rewrite Forall_forall in HZ. apply HZ. apply in_or_app. right. now left. }
              destruct HC as [HC ND]. rewrite app_assoc in HC. apply Forall2_at in HC as (la & sa & lb & -> & Hla & HCa & _). rewrite app_length in Hla.
              apply wp_bind. eapply wp_rd. { apply nth_mid. lia. } apply wp_bind. apply destroy_empty_wp; auto. apply wp_ret. exists (h - S j). cj; auto; lia.
      * destruct Ha as [|a Ha]; [simpl in E3; lia|]. destruct Hb as [|b Hb]; [simpl in E4; lia|]. simpl in E3, E4.
        apply Forall_cons_iff in HGA as [[GA1 GA2] GA3]. apply Forall_cons_iff in HGB as [[GB1 GB2] GB3].
        assert (EQL : M ++ (a :: Ha) ++ Z ++ b :: Hb = M ++ a :: (Ha ++ Z) ++ b :: Hb) by (rewrite <- app_assoc; reflexivity). rewrite EQL in *.
        destruct (lcoll_merge p3 ls2 M a (Ha ++ Z) b Hb) as (s & o & Es & Eo & HM); auto.
        { intros x Hx. destruct SP as (_ & _ & _ & ->). apply HV. apply (Permutation_in _ HP). rewrite !concat_app. simpl. rewrite !concat_app. simpl. rewrite !in_app_iff in *. tauto. }
        apply wp_bind. eapply wp_rd. { rewrite <- E1. exact Es. }
        apply wp_bind. eapply wp_rd. { replace (h + i) with (length M + S (length (Ha ++ Z))) by (rewrite app_length; lia). exact Eo. }
        apply wp_bind. apply HM. intros p4 SP4 HC4 FR4 _. apply wp_ret. exists (h - S i). split; [lia|]. cj; auto; try lia.
        exists (M ++ [merge ltn a b]), Ha, (Z ++ [[]]), Hb. rewrite !app_length. simpl. cj; auto; try lia.
        -- eapply same_pool_trans; eauto.
        -- rewrite <- !app_assoc. cbn [app]. rewrite <- app_assoc in HC4. exact HC4.
        -- apply Forall_app. auto.
        -- apply Forall_app. split; auto. constructor; auto. split; [apply merge_nonempty; auto|apply sorted_merge; auto].
        -- rewrite <- HP. apply (Permutation_count_occ Nat.eq_dec). intros j. pose proof (cnt_perm _ _ (merge_perm ltn a b) j) as CP. rewrite cnt_app in CP.
           match goal with |- count_occ _ ?x _ = count_occ _ ?y _ => change (cnt x j = cnt y j) end. cnt_goal. lia.
        -- eapply frame_out_trans; [exact FR|exact FR4|apply incl_refl|]. intros j Hj. apply in_app_or in Hj as [Hj|Hj].
           ++ apply in_or_app. left. auto.
           ++ apply in_or_app. right. eapply Permutation_in; [exact HP|]. exact Hj.
Qed.
End Rounds.
