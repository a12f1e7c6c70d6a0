(** The melsort of slabsort. *)
From Coq Require Import List Arith Lia Permutation Bool.
From Verif Require Import Spec.Order Spec.Sorts Lang.Mem Proofs.Wp Proofs.OrderLib Model.Indirect Proofs.Indirect Model.Insertion Proofs.Insertion
  Model.Select Proofs.Select Model.FixedList Model.Mel Model.Slab
  Proofs.FixedList Proofs.ListPath Proofs.ListMerge Proofs.Encroach Proofs.ListRounds Proofs.ListMoves Proofs.ListEdges Proofs.Mel.
Import ListNotations.
Local Arguments nth_error : simpl never.
Local Arguments upd : simpl never.
Local Arguments Nat.mul : simpl never.

Lemma list_ext : forall X (l l' : list X), (forall i, nth_error l i = nth_error l' i) -> l = l'.
Proof.
  intros X. induction l as [|x l IH]; intros [|y l'] H; auto; pose proof (H 0) as H0; try discriminate.
  injection H0 as ->. f_equal. apply IH. intros i. apply (H (S i)).
Qed.

Lemma nth_map_seq' : forall X (F : nat -> X) a n j, j < n -> nth_error (map F (seq a n)) j = Some (F (a + j)).
Proof. intros X F a n j H. apply map_nth_error. rewrite nth_error_nth' with (d := 0) by (now rewrite seq_length). now rewrite seq_nth. Qed.

Section Pool.
Context {A V : Type}.
Implicit Types (p : node_pool V).

Lemma freelist_app : forall (ns ns' : list (list_node V)) ids f fs b, ids <> [] -> NoDup (ids ++ fs) -> freelist ns f fs -> length ns' = length ns ->
  (forall x, In x ids -> x < length ns /\ vl ns' x = Raw) -> (forall x, In x fs -> vl ns' x = vl ns x) ->
  linked (fun x y => nxt ns x = Some y) ids -> b = last ids 0 ->
  (forall j, nxt ns' j = if j =? b then f else nxt ns j) -> freelist ns' (Some (hd 0 ids)) (ids ++ fs).
Proof.
  intros ns ns' ids f fs b HN ND HF HL HI HV HK Hb HX. subst b. revert HN ND HI HK HX. induction ids as [|x ids IH]; intros HN ND HI HK HX; [congruence|].
  cbn [app freelist hd]. destruct (HI x (or_introl eq_refl)) as [I1 I2]. split; auto. split; [lia|]. split; auto.
  inversion ND as [|? ? N1 N2]; subst. destruct ids as [|y ids].
  - cbn [app last] in *. rewrite HX, Nat.eqb_refl. eapply freelist_frame; [exact HF|lia|]. intros j Hj. split; auto. rewrite HX. destruct (Nat.eqb_spec j x); auto. subst. tauto.
  - rewrite HX. destruct HK as [HK1 HK2]. change (last (x :: y :: ids) 0) with (last (y :: ids) 0).
    destruct (Nat.eqb_spec x (last (y :: ids) 0)) as [E|E].
    + exfalso. apply N1. apply in_or_app. left. rewrite E. apply last_in. discriminate.
    + rewrite HK1. apply IH; auto; try discriminate. intros j Hj. apply HI. now right.
Qed.

(** The lists give all their nodes back. *)
Lemma destroy_lists_wp : forall p lists L fs (Q : node_pool V -> mem A -> Prop) m, coll p lists L fs -> (forall j, In j (concat L) -> vl (nodes p) j <> Raw) ->
  (forall p' fs', coll p' [] [] fs' -> Permutation fs' (concat L ++ fs) -> Q p' m) -> wp (destroy_lists p lists) Q m.
Proof.
  intros p lists L fs Q m HC HV HQ. unfold destroy_lists.
  assert (HLE := Forall2_len _ _ _ _ _ (proj1 HC)).
  apply wp_loop_k with (k := length lists) (I := fun k '(i, p') m' => m' = m /\ exists la lb La Lb fs', lists = la ++ lb /\ L = La ++ Lb /\ length la = i /\ k = length lb /\ coll p' lb Lb fs' /\
     Permutation fs' (concat La ++ fs) /\ (forall j, In j (concat Lb) -> vl (nodes p') j <> Raw)).
  - split; auto. exists [], lists, [], L, fs. cj; auto.
  - lia.
  - clear HC HV. intros k [i p1] m1 (-> & la & lb & La & Lb & fs1 & -> & -> & <- & -> & HC & HP & HV).
    destruct (Nat.eqb_spec (length la) (length (la ++ lb))) as [Hi|Hi].
    + rewrite app_length in Hi. destruct lb; [|simpl in Hi; lia]. destruct HC as (HC & HC2). inversion HC; subst. rewrite app_nil_r in *. apply wp_ret. eapply HQ; eauto. split; auto.
    + rewrite app_length in Hi. destruct lb as [|s lb]; [simpl in Hi; lia|]. apply wp_bind. eapply wp_rd. { now apply nth_mid. }
      destruct HC as (HC & HF & ND). inversion HC as [|? ids ? Lb' C1 C2]; subst. cbn [concat] in *.
      assert (C1' := C1). destruct C1 as (NDs & Hin & K1 & K2).
      apply wp_bind. eapply destroy_list_wp with (ids := ids) (b := lst_or s ids); eauto.
      { now apply chain_prev_end. }
      { apply Hin. apply lst_or_in. }
      { intros j Hj. apply HV. apply in_or_app. auto. }
      intros p' J1 J2 J3 J4 J5 J6 J7. apply wp_ret. exists (length lb). split; [simpl; lia|]. split; auto.
      exists (la ++ [s]), lb, (La ++ [ids]), Lb', (ids ++ fs1).
      assert (FR : forall j, In j (lb ++ concat Lb') -> nxt (nodes p') j = nxt (nodes p1) j /\ prv (nodes p') j = prv (nodes p1) j).
      { intros j Hj. split; auto. rewrite J4. destruct ids as [|x ids]; auto. destruct (Nat.eqb_spec j (lst_or s (x :: ids))) as [->|]; auto. exfalso.
        assert (In (lst_or s (x :: ids)) (x :: ids)) as Hl. { unfold lst_or. apply last_in. discriminate. }
        remember (lst_or s (x :: ids)) as q. remember (x :: ids) as ids'. clear - ND Hl Hj. apply in_app_or in Hj as [Hj|Hj]; nodup ND q. }
      cj; auto.
      * now rewrite <- app_assoc.
      * now rewrite <- app_assoc.
      * rewrite app_length. simpl. lia.
      * split; [|split].
        -- eapply chains_frame; [exact C2|lia|exact FR].
        -- destruct ids as [|x ids].
           ++ cbn [app]. rewrite J3. eapply freelist_frame; [exact HF|lia|]. intros j Hj. split; [rewrite J4; auto|apply J7; tauto].
           ++ rewrite J3. change (Some x) with (Some (hd 0 (x :: ids))). eapply freelist_app with (ns := nodes p1); eauto.
              ** discriminate.
              ** remember (x :: ids) as ids'. apply NoDup_cnt. intros j. clear - ND. nodup ND j.
              ** intros j Hj. split; auto. apply Hin. now right.
              ** intros j Hj. apply J7. intros Hi'. remember (x :: ids) as ids'. clear - ND Hj Hi'. nodup ND j.
              ** change (s :: (x :: ids) ++ [s]) with ([s] ++ (x :: ids) ++ [s]) in K1. apply linked_split in K1 as [_ K1]. apply linked_split in K1 as [K1 _]. exact K1.
              ** unfold lst_or in J4. intros j. rewrite J4. clear. replace (last (x :: ids) s) with (last (x :: ids) 0); auto.
                 revert x. induction ids as [|y ids IH]; intros x; auto. change (last (y :: ids) 0 = last (y :: ids) s). auto.
        -- apply NoDup_cnt. intros j. clear - ND. nodup ND j.
      * apply (Permutation_count_occ Nat.eq_dec). intros j. change (cnt (ids ++ fs1) j = cnt (concat (La ++ [ids]) ++ fs) j). assert (HPj := cnt_perm _ _ HP j). revert HPj. cnt_goal. lia.
      * intros j Hj. rewrite J7. { apply HV. apply in_or_app. auto. } intros Hi'. clear - ND Hj Hi'. nodup ND j.
Qed.
End Pool.

(** * Iterators and values *)
Lemma retype_links : forall V W (p : node_pool V) j, nxt (nodes (@retype V W p)) j = nxt (nodes p) j /\ prv (nodes (@retype V W p)) j = prv (nodes p) j /\ vl (nodes (@retype V W p)) j = Raw.
Proof. intros V W p j. unfold nxt, prv, vl, retype. cbn [nodes]. rewrite nth_error_map. destruct (nth_error (nodes p) j); auto. Qed.

Lemma retype_length : forall V W (p : node_pool V), length (nodes (@retype V W p)) = length (nodes p).
Proof. intros. unfold retype. cbn [nodes]. apply map_length. Qed.

Lemma chain_retype : forall V W (ns : list (list_node V)) (ns' : list (list_node W)) s ids, chain ns s ids -> length ns <= length ns' ->
  (forall j, nxt ns' j = nxt ns j /\ prv ns' j = prv ns j) -> chain ns' s ids.
Proof.
  intros V W ns ns' s ids (H1 & H2 & H3 & H4) HL HF. split; auto. split; [|split].
  - intros x Hx. specialize (H2 x Hx). lia.
  - eapply linked_mono; [exact H3|]. intros. destruct (HF x) as [-> _]. auto.
  - eapply linked_mono; [exact H4|]. intros. destruct (HF y) as [_ ->]. auto.
Qed.

Lemma freelist_retype : forall V W (ns : list (list_node V)) (ns' : list (list_node W)) fs f, freelist ns f fs -> length ns <= length ns' ->
  (forall j, nxt ns' j = nxt ns j) -> (forall j, In j fs -> vl ns' j = Raw) -> freelist ns' f fs.
Proof.
  intros V W ns ns'. induction fs as [|x fs IH]; simpl; intros f H HL HF HR; auto. destruct H as (-> & H1 & H2 & H3). cj; auto; [lia|].
  rewrite HF. apply IH; auto.
Qed.

Section Slab.
Context {A T : Type} (comp : T -> T -> bool) (proj : A -> T).
Local Notation lt := (by_proj comp proj).

(** The nodes of [d] have received their elements. *)
Definition reified (p : node_pool nat) (m : mem A) (w : nat -> nat) (v : nat -> A) (d : list nat) (q : node_pool A) (m' : mem A) : Prop :=
  length (nodes q) = length (nodes p) /\ first_free q = first_free p /\ capacity q = capacity p /\
  (forall j, nxt (nodes q) j = nxt (nodes p) j /\ prv (nodes q) j = prv (nodes p) j) /\
  (forall j, In j d -> vl (nodes q) j = Val (v j)) /\ (forall j, ~ In j d -> vl (nodes q) j = Raw) /\
  length m' = length m /\ (forall j, In j d -> nth_error m' (w j) = Some Moved) /\ (forall i, ~ In i (map w d) -> nth_error m' i = nth_error m i).

Lemma reify_wp : forall p lists L w v (Q : node_pool A -> mem A -> Prop) m, Forall2 (chain (nodes p)) lists L -> NoDup (lists ++ concat L) ->
  NoDup (map w (concat L)) -> (forall j, In j (concat L) -> vl (nodes p) j = Val (w j) /\ nth_error m (w j) = Some (Val (v j))) ->
  (forall q m', reified p m w v (concat L) q m' -> Q q m') -> wp (reify p lists) Q m.
Proof.
  intros p lists L w v Q m HC ND NDW HH HQ. unfold reify.
  assert (HLE := Forall2_len _ _ _ _ _ HC).
  apply wp_loop_k with (k := length lists) (I := fun k '(i, q) m' => exists la lb La Lb, lists = la ++ lb /\ L = La ++ Lb /\ length la = i /\ k = length lb /\
     Forall2 (chain (nodes p)) lb Lb /\ reified p m w v (concat La) q m').
  - exists [], lists, [], L. cj; auto. unfold reified. cj; auto.
    + apply retype_length.
    + intros j. destruct (retype_links nat A p j) as (-> & -> & _). auto.
    + intros j [].
    + intros j _. apply retype_links.
    + intros j [].
  - lia.
  - intros k [i q] m1 (la & lb & La & Lb & EL1 & EL2 & <- & -> & HCb & HR).
    destruct (Nat.eqb_spec (length la) (length lists)) as [Hi|Hi].
    + rewrite EL1, app_length in Hi. destruct lb; [|simpl in Hi; lia]. inversion HCb; subst Lb. rewrite app_nil_r in *. subst La. apply wp_ret. auto.
    + destruct lb as [|s lb]. { rewrite EL1, app_length in Hi. simpl in Hi. lia. }
      apply wp_bind. eapply wp_rd. { rewrite EL1. now apply nth_mid. }
      inversion HCb as [|s' ids lb' Lb' C1 C2]; subst s' lb' Lb. clear HCb.
      apply wp_bind. eapply wp_list_next. { apply (chain_begin _ _ _ C1). }
      assert (CL : concat L = concat La ++ ids ++ concat Lb') by (rewrite EL2, concat_app; auto).
      apply wp_bind. apply wp_loop_k with (k := length ids) (I := fun k '(it, q) m' => exists a b, ids = a ++ b /\ k = length b /\ it = fst_or s b /\ reified p m w v (concat La ++ a) q m').
      * exists [], ids. rewrite app_nil_r. cj; auto.
      * assert (incl ids (seq 0 (length (nodes p)))) as HI. { intros z Hz. apply in_seq. destruct C1 as (_ & C1 & _). specialize (C1 z (or_intror Hz)). lia. }
        apply NoDup_incl_length in HI; [|destruct C1 as (C1 & _); inversion C1; auto]. rewrite seq_length in HI. lia.
      * clear HR. intros k [it q1] m2 (a & b & -> & -> & -> & HR). destruct b as [|x b].
        -- unfold fst_or. simpl hd. rewrite Nat.eqb_refl. apply wp_ret. apply wp_ret. exists (length lb). split; [simpl; lia|].
           exists (la ++ [s]), lb, (La ++ [a]), Lb'. rewrite app_nil_r in *. cj; auto.
           ++ rewrite <- app_assoc. auto.
           ++ rewrite <- app_assoc. auto.
           ++ rewrite app_length. simpl. lia.
           ++ rewrite concat_app. cbn [concat]. rewrite app_nil_r. auto.
        -- unfold fst_or. simpl hd.
           assert (HxL : In x (concat L)). { rewrite CL. apply in_or_app. right. apply in_or_app. left. apply in_or_app. right. now left. }
           destruct (Nat.eqb_spec x s) as [->|Hxs].
           { exfalso. destruct C1 as (C1 & _). inversion C1 as [|? ? C3 _]; subst. apply C3. apply in_or_app. right. now left. }
           destruct (HH x HxL) as [HV HM]. destruct HR as (R1 & R2 & R3 & R4 & R5 & R6 & R7 & R8 & R9).
           assert (Hnw : ~ In (w x) (map w (concat La ++ a))).
           { rewrite CL in NDW. rewrite <- app_assoc, app_assoc, map_app in NDW. intros Hi'. eapply NoDup_app_disj; [exact NDW|exact Hi'|]. cbn [map app]. now left. }
           assert (Hnx : ~ In x (concat La ++ a)). { intros Hi'. apply Hnw. now apply in_map. }
           apply wp_bind. eapply wp_list_deref; [exact HV|]. apply wp_bind. eapply wp_take. { rewrite R9; [exact HM|exact Hnw]. }
           apply wp_bind. apply wp_set_value. { rewrite R1. apply (proj1 (proj2 C1)). right. apply in_or_app. right. now left. }
           intros ns' N1 N2 N3 N4. apply wp_bind. eapply wp_list_next. { eapply chain_next. exact C1. }
           apply wp_ret. exists (length b). split; [simpl; lia|]. exists (a ++ [x]), b. cj; auto.
           { now rewrite <- app_assoc. }
           rewrite app_assoc. assert (Hwb : w x < length m2). { rewrite R7. apply nth_error_Some. rewrite HM. discriminate. }
           unfold reified, with_nodes. cbn [nodes first_free capacity]. cj; auto.
           ++ lia.
           ++ intros j. rewrite N3, N4. auto.
           ++ intros j Hj. rewrite N2. destruct (Nat.eqb_spec j x) as [->|]; auto. apply in_app_or in Hj as [Hj|[->|[]]]; [auto|congruence].
           ++ intros j Hj. rewrite N2. destruct (Nat.eqb_spec j x) as [->|]. { exfalso. apply Hj. apply in_or_app. right. now left. } apply R6. intros Hi'. apply Hj. apply in_or_app. auto.
           ++ now rewrite upd_length.
           ++ intros j Hj. apply in_app_or in Hj as [Hj|[->|[]]].
              ** rewrite nth_upd_ne; auto. intros E. apply Hnw. rewrite E. now apply in_map.
              ** now rewrite nth_upd_eq.
           ++ intros i0 Hi0. rewrite map_app in Hi0. cbn [map] in Hi0. rewrite nth_upd_ne. { apply R9. intros Hi'. apply Hi0. apply in_or_app. auto. }
              intros <-. apply Hi0. apply in_or_app. right. now left.
Qed.

Hypothesis HC : strict_weak_order comp.

Definition pool_ok (n : nat) (p : node_pool nat) : Prop := exists fs, coll p [] [] fs /\ length fs = n.

Lemma nonempty_concat : forall (L : list (list nat)), Forall (fun l => l <> []) L -> length L <= length (concat L).
Proof. induction 1 as [|l L H HF IH]; auto. cbn [concat]. rewrite app_length. destruct l; [congruence|]. simpl. lia. Qed.

Lemma try_melsort_wp : forall p n xs pre post pm (Q : bool * node_pool nat -> mem A -> Prop), pool_ok n p -> length xs <= n ->
  (forall b p' ys, pool_ok n p' -> Permutation xs ys -> (b = true -> sorted lt ys) -> (b = false -> pm <= length xs) -> Q (b, p') (pre ++ map Val ys ++ post)) ->
  wp (try_melsort comp proj (length pre) (length pre + length xs) (length xs) pm p) Q (pre ++ map Val xs ++ post).
Proof.
  intros p n xs pre post pm Q HP HLx HQ. assert (HW := swo_by_proj _ _ comp proj HC). unfold try_melsort.
  destruct (Nat.ltb_spec (length xs) 32) as [HS|HS].
  { apply wp_bind. destruct (insertion_sorts_stably comp proj HC pre xs post) as (ys & E & H1 & H2 & _). eapply wp_run; [exact E|]. apply wp_ret. apply HQ; auto. discriminate. }
  destruct HP as (fs & HCO & HFL). destruct fs as [|f0 fs]; [simpl in HFL; lia|].
  destruct (new_list p) as [l p1] eqn:EN. unfold push_back. apply wp_bind. apply wp_bind.
  eapply coll_new; [exact HCO|exact EN|]. intros p2 HC2 LN2 CP2 VL2. apply wp_ret. cbn [app] in HC2.
  destruct xs as [|x0 xt]; [simpl in HS; lia|]. set (xs := x0 :: xt) in *. set (m0 := pre ++ map Val xs ++ post).
  assert (Hm0 : forall k x, nth_error xs k = Some x -> nth_error m0 (length pre + k) = Some (Val x)).
  { intros k x Hk. unfold m0. rewrite nth_error_app2 by lia. replace (length pre + k - length pre) with k by lia. rewrite nth_error_app1. { now apply map_nth_error. }
    rewrite map_length. apply nth_error_Some. congruence. }
  apply wp_bind. apply wp_loop_k with (k := length xs - 1) (I := fun k '(it, lists, p) m => exists v w n1 L fs, m = m0 /\ k = length xs - n1 /\ n1 <= length xs /\ it = length pre + n1 /\
    n1 + length fs = n /\ coll p lists L fs /\ L <> [] /\ enc comp proj v L /\ Permutation (map w (concat L)) (seq (length pre) n1) /\
    (forall j, In j (concat L) -> vl (nodes p) j = Val (w j) /\ nth_error m0 (w j) = Some (Val (v j)))).
  - exists (fun _ => x0), (fun _ => length pre), 1, [[f0]], fs. cj; auto; try (unfold xs; simpl; lia); try discriminate.
    + split; [constructor; auto; discriminate|]. split; [constructor; auto; apply sorted_one|]. split; [apply sorted_one|]. split; [apply sorted_one|]. constructor.
    + intros j [<-|[]]. split.
      * rewrite VL2. { now rewrite Nat.eqb_refl. } destruct HCO as (_ & HF & _). destruct HF as (_ & HF & _). exact HF.
      * rewrite <- (Nat.add_0_r (length pre)). apply Hm0. reflexivity.
  - lia.
  - clear HCO HFL p1 EN p2 HC2 LN2 CP2 VL2. intros k [[it lists] p2] m (v & w & n1 & L & fs1 & -> & -> & Hn1 & -> & HF1 & HCO & HN & HE & HPM & HH).
    assert (HLL := Forall2_len _ _ _ _ _ (proj1 HCO)).
    assert (HCL : length (concat L) = n1). { apply Permutation_length in HPM. now rewrite map_length, seq_length in HPM. }
    destruct (Nat.eqb_spec (length pre + n1) (length pre + length xs)) as [Hi|Hi].
    + assert (n1 = length xs) as -> by lia. clear Hi Hn1. apply wp_ret.
      destruct HCO as (HCC & HFR & ND).
      assert (NDW : NoDup (map w (concat L))). { eapply Permutation_NoDup; [symmetry; exact HPM|apply seq_NoDup]. }
      apply wp_bind. eapply reify_wp with (v := v) (w := w); [exact HCC| |exact NDW|exact HH|].
      { apply NoDup_cnt. intros j. clear - ND. nodup ND j. }
      intros q m' (R1 & R2 & R3 & R4 & R5 & R6 & R7 & R8 & R9).
      assert (m' = pre ++ repeat Moved (length xs) ++ post) as ->.
      { apply list_ext. intros i. destruct (le_lt_dec (length pre) i) as [Hi|Hi].
        - destruct (le_lt_dec (length pre + length xs) i) as [Hi2|Hi2].
          + rewrite R9. 2:{ intros Hin. apply (Permutation_in _ HPM), in_seq in Hin. lia. }
            unfold m0. rewrite !app_assoc. rewrite !nth_error_app2; rewrite ?app_length, ?map_length, ?repeat_length; auto.
          + assert (In i (map w (concat L))) as Hin. { apply (Permutation_in _ (Permutation_sym HPM)), in_seq. lia. }
            apply in_map_iff in Hin as (j & <- & Hj). rewrite R8; auto. rewrite nth_error_app2 by lia. rewrite nth_error_app1 by (rewrite repeat_length; lia).
            symmetry. apply nth_error_repeat. lia.
        - rewrite R9. 2:{ intros Hin. apply (Permutation_in _ HPM), in_seq in Hin. lia. } unfold m0. rewrite !nth_error_app1 by lia. auto. }
      assert (HCq : lcoll (nodes q) lists L).
      { split. { clear - HCC R1 R4. induction HCC; constructor; auto. eapply chain_retype; eauto. lia. } apply NoDup_cnt. intros j. clear - ND. nodup ND j. }
      assert (HFq : freelist (nodes q) (first_free q) fs1).
      { rewrite R2. eapply freelist_retype; [exact HFR|lia| |]. { intros j. apply R4. } intros j Hj. apply R6. intros Hj2. clear - ND Hj Hj2. nodup ND j. }
      assert (HBL : forall j, In j fs1 -> j < length (nodes q)).
      { clear - HFq. revert HFq. generalize (first_free q). induction fs1 as [|y l IH]; simpl; intros f H j Hj; [tauto|]. destruct H as (_ & H1 & _ & H2). destruct Hj as [->|Hj]; eauto. }
      apply wp_bind. eapply merge_encroaching_lists_wp with (v := v) (L := L) (pre := pre) (cs := repeat Moved (length xs)); eauto.
      * rewrite repeat_length. auto.
      * apply Forall_forall. intros c Hc. apply repeat_spec in Hc. subst c. discriminate.
      * intros p' lists' L' out HWL HPL HPo HSo HM HM2 HX. destruct (HX eq_refl) as (X1 & X2 & X3 & X4 & X5 & X6). clear HX.
        apply wp_bind. eapply destroy_lists_wp with (L := L') (fs := fs1).
        { destruct X1 as [X1 X1']. split; [exact X1|]. split.
          - rewrite X5. eapply freelist_frame; [exact HFq|lia|]. intros j Hj.
            assert (~ In j (lists ++ concat L)) as Hnj. { intros Hi'. clear - ND Hj Hi'. apply in_app_or in Hi' as [Hi'|Hi']; nodup ND j. }
            split. { apply X6; auto. } apply HM2; auto. intros Hi'. apply Hnj. apply in_or_app. auto.
          - apply NoDup_cnt. intros j. assert (HCj := cnt_perm _ _ HPL j). destruct (in_dec Nat.eq_dec j fs1) as [Hj|Hj].
            + assert (~ In j lists) as H1 by (intros Hi'; clear - ND Hj Hi'; nodup ND j). assert (~ In j (concat L)) as H2 by (intros Hi'; clear - ND Hj Hi'; nodup ND j).
              assert (~ In j lists') as H3 by (intros Hi'; apply H1, X2, Hi'). assert (cnt fs1 j <= 1) by (clear - ND; nodup ND j).
              rewrite In_cnt in H2, H3. rewrite !cnt_app. lia.
            + rewrite In_cnt in Hj. rewrite NoDup_cnt in X1'. specialize (X1' j). rewrite !cnt_app in *. lia. }
        { intros j Hj. rewrite HM; [discriminate|]. apply (Permutation_in _ HPL). exact Hj. }
        intros p3 fs3 (Z1 & Z2 & Z3) HP3. apply wp_ret. apply HQ.
        -- exists fs3. split.
           ++ split; [constructor|]. split; auto. eapply freelist_retype; [exact Z2|rewrite retype_length; auto| |].
              { intros j. apply retype_links. } intros j _. apply retype_links.
           ++ rewrite (Permutation_length HP3), app_length, (Permutation_length HPL). lia.
        -- rewrite HPo. clear - HPM HH Hm0. assert (map v (concat L) = map (fun i => nth (i - length pre) xs x0) (map w (concat L))) as ->.
           { rewrite map_map. apply map_ext_in. intros j Hj. destruct (HH j Hj) as [_ H].
             assert (In (w j) (seq (length pre) (length xs))) as Hs by (apply (Permutation_in _ HPM), in_map, Hj). apply in_seq in Hs.
             destruct (nth_some _ xs (w j - length pre)) as (x & Ex); [lia|]. erewrite nth_error_nth by exact Ex. apply Hm0 in Ex. replace (length pre + (w j - length pre)) with (w j) in Ex by lia. congruence. }
           rewrite HPM. replace (map (fun i => nth (i - length pre) xs x0) (seq (length pre) (length xs))) with xs; auto.
           apply list_ext. intros i. destruct (le_lt_dec (length xs) i) as [Hi|Hi].
           { rewrite (proj2 (nth_error_None _ _) Hi). symmetry. apply nth_error_None. rewrite map_length, seq_length. auto. }
           rewrite nth_map_seq' by auto. replace (length pre + i - length pre) with i by lia. now apply nth_error_nth'.
        -- intros _. apply (sorted_nodes comp proj). exact HSo.
        -- discriminate.
    + destruct fs1 as [|f fs1]; [simpl in HF1; lia|].
      destruct (nth_some _ xs n1) as (y & Ey); [lia|].
      apply wp_bind. eapply add_to_lists_wp with (holds := fun m w y => nth_error m w = Some (Val y)) (after := fun m it => m) (made := fun it w => w = it) (L := L) (x := f) (fs := fs1) (v := v) (y := y); eauto.
      * intros m w0 z Q' Hz HQ'. eapply wp_get; eauto.
      * intros m it z Q' Hz HQ'. apply wp_ret. apply HQ'; auto.
      * intros j Hj. destruct (HH j Hj) as [H1 H2]. exists (w j). auto.
      * intros p' lists' L' HC' HN' HE' HP' HLn HH' CP' LN' (w0 & -> & HW0).
        assert (HCL' : length (concat L') = S n1). { apply Permutation_length in HP'. rewrite HP'. simpl. lia. }
        assert (Hjl : forall j, In j (concat L) -> j < length (nodes p2)). { intros j Hj. eapply chains_bound; [apply HCO|]. apply in_or_app. auto. }
        assert (Hfl : f < length (nodes p2)). { destruct HCO as (_ & HF & _). destruct HF as (_ & HF & _). exact HF. }
        assert (Hfn : ~ In f (concat L)). { intros Hj. destruct HCO as (_ & _ & ND). clear - ND Hj. nodup ND f. }
        set (w' := fun j => if j =? f then length pre + n1 else w j).
        assert (HVW : forall j, In j (concat L') -> vl (nodes p') j = Val (w' j) /\ nth_error m0 (w' j) = Some (Val (if j =? f then y else v j))).
        { intros j Hj. destruct (HH' j Hj) as (w1 & Z1 & Z2). apply (Permutation_in _ HP') in Hj. unfold w'.
          assert (j < length (nodes p2)) as Hj2 by (destruct Hj as [<-|Hj]; auto). specialize (HW0 j Hj2). destruct (Nat.eqb_spec j f) as [E|Hjf].
          - subst j. split; auto. 
          - destruct Hj as [->|Hj]; [congruence|]. destruct (HH j Hj) as [H1 H2]. split; auto. congruence. }
        assert (HPW : Permutation (map w' (concat L')) (seq (length pre) (S n1))).
        { rewrite (Permutation_map w' HP'). cbn [map]. unfold w' at 1. rewrite Nat.eqb_refl. rewrite seq_S. rewrite <- Permutation_cons_append. constructor.
          rewrite <- HPM. rewrite (map_ext_in w' w); auto. intros j Hj. unfold w'. destruct (Nat.eqb_spec j f) as [->|]; auto. tauto. }
        destruct (Nat.leb_spec pm (length lists')) as [HG|HG].
        -- apply wp_ret. apply wp_bind. eapply destroy_lists_wp; [exact HC'| |].
           { intros j Hj. destruct (HVW j Hj) as [-> _]. discriminate. }
           intros p3 fs3 HC3 HP3. apply wp_ret. apply HQ with (ys := xs); auto; try discriminate.
           ++ exists fs3. split; auto. rewrite (Permutation_length HP3), app_length. simpl in HF1. lia.
           ++ intros _. assert (HLL' := Forall2_len _ _ _ _ _ (proj1 HC')). destruct HE' as (E1 & _). apply nonempty_concat in E1. lia.
        -- apply wp_ret. exists (length xs - S n1). split; [lia|].
           exists (fun j => if j =? f then y else v j), w', (S n1), L', fs1. cj; auto; try lia. simpl in HF1. lia.
Qed.
End Slab.
