(** pdqsort sorts. *)
From Coq Require Import List Arith Lia Permutation Bool.
From Verif Require Import Spec.Order Lang.Mem Spec.Sorts Proofs.Wp Proofs.OrderLib Model.Basic Proofs.Basic
  Proofs.IndexLib Model.Indirect Proofs.Indirect Model.Insertion Proofs.Insertion Model.Heap Proofs.Heap Model.Pdq Proofs.PdqPart.
Import ListNotations.

(** Read a cell of a memory presented as [l1 ++ c :: l2]. *)
Lemma nth_shape : forall X (m l1 l2 : list X) c i, m = l1 ++ c :: l2 -> i = length l1 -> nth_error m i = Some c.
Proof. intros. subst. apply nth_mid. Qed.

Lemma pm_intro : forall A pre (xs ys : list A) post, Permutation xs ys ->
  pm (length pre) (length pre + length xs) (pre ++ map Val xs ++ post) (pre ++ map Val ys ++ post).
Proof.
  intros A pre xs ys post HP. split.
  - split. { rewrite !app_length, !map_length. now rewrite (Permutation_length HP). }
    intros k [Hk|Hk].
    + rewrite !nth_error_app1; auto.
    + rewrite !(nth_error_app2 pre) by lia.
      rewrite !nth_error_app2; rewrite !map_length; rewrite <- ?(Permutation_length HP); auto; lia.
  - apply Permutation_app_head, Permutation_app_tail, Permutation_map; auto.
Qed.

Ltac lensr := repeat (progress (simpl length in *; autorewrite with len in *)); try lia.

Section Pdq.
Context {A T : Type} (comp : T -> T -> bool) (proj : A -> T).
Notation lt := (by_proj comp proj).
Implicit Types m W : mem A.

(** Putting the pivot back. *)
Lemma pivot_back_wp : forall X (x : X) b e p pivot m W' (Q : X -> mem A -> Prop),
  full b e m -> nth_error m b = Some (Val pivot) -> b <= p < e ->
  pm (S b) e (upd b Moved m) W' ->
  (forall m', pm b e m m' -> nth_error m' p = Some (Val pivot) ->
     (p <> b -> nth_error m' b = nth_error W' p) ->
     (forall k, k <> p -> k <> b -> nth_error m' k = nth_error W' k) -> Q x m') ->
  wp (move_to_self true p b ;; put p pivot ;; ret x) Q W'.
Proof.
  intros X x b e p pivot m W' Q Hf Hb Hp HP HQ.
  pose proof (nth_lt _ _ _ Hb) as Lb.
  set (V := upd b (Val pivot) W').
  assert (pm (S b) e m V) as HV.
  { replace m with (upd b (Val pivot) (upd b Moved m)).
    - apply pm_upd_out; auto; lia.
    - rewrite upd_upd, upd_id; auto. }
  assert (length W' = length m) as LW. { rewrite (pm_length _ _ _ _ HP). apply upd_length. }
  assert (nth_error W' b = Some Moved) as EM.
  { rewrite (pm_out _ _ _ _ b HP) by lia. apply nth_upd_eq; auto. }
  assert (W' = upd b Moved V) as EW.
  { subst V. rewrite upd_upd, upd_id; auto. }
  assert (nth_error V b = Some (Val pivot)) as EV. { subst V. apply nth_upd_eq. lia. }
  assert (pm b e m V) as HV' by (eapply pm_widen; eauto; lia).
  apply wp_bind. unfold move_to_self. destruct (Nat.eqb_spec p b) as [->|Hne].
  - unfold wp. rewrite EM. apply wp_bind. rewrite EW. eapply wp_put_hole; eauto. apply wp_ret.
    apply HQ; auto; try congruence. intros k K1 K2. subst V. now rewrite nth_upd_ne by auto.
  - assert (nth_error W' p = nth_error V p) as EP by (subst V; rewrite nth_upd_ne; auto).
    rewrite EP in HQ. rewrite EW. eapply wp_move_hole_pm with (f := b) (l := e); eauto; try lia.
    { eapply pm_full; eauto. }
    intros m' HP' HS' Ht'. apply wp_bind. eapply wp_put_hole; eauto. apply wp_ret. apply HQ; auto.
    + eapply pm_trans; eauto.
    + intros _. rewrite HS', tr_l. auto.
    + intros k K1 K2. rewrite HS', tr_o by auto. subst V. now rewrite nth_upd_ne by auto.
Qed.

Notation L pivot b := (holds (fun x => lt x pivot = b)).

Definition part_right (b e p : nat) (pivot : A) m m' : Prop :=
  pm b e m m' /\ b <= p < e /\ nth_error m' p = Some (Val pivot) /\
  (forall j, b <= j < p -> L pivot true m' j) /\ (forall j, p < j < e -> L pivot false m' j).

Lemma part_right_back : forall X (x : X) b e r pivot m W' (Q : X -> mem A -> Prop),
  full b e m -> nth_error m b = Some (Val pivot) -> b < r <= e ->
  pm (S b) e (upd b Moved m) W' ->
  (forall j, b < j < r -> L pivot true W' j) -> (forall j, r <= j < e -> L pivot false W' j) ->
  (forall m', part_right b e (r - 1) pivot m m' -> Q x m') ->
  wp (move_to_self true (r - 1) b ;; put (r - 1) pivot ;; ret x) Q W'.
Proof.
  intros X x b e r pivot m W' Q Hf Hb Hr HP HL HR HQ.
  eapply pivot_back_wp; eauto; [lia|].
  intros m' HP' Hp H1 H2. apply HQ. unfold part_right. cj; auto; try lia.
  - intros j Hj. destruct (Nat.eq_dec j b) as [->|].
    + eapply holds_ext; [apply H1; lia|]. apply HL. lia.
    + eapply holds_ext; [apply H2; lia|]. apply HL. lia.
  - intros j Hj. eapply holds_ext; [apply H2; lia|]. apply HR. lia.
Qed.

Lemma full_hole : forall b e m, full b e m -> full (S b) e (upd b Moved m).
Proof.
  intros b e m [HL H]. split. { now rewrite upd_length. }
  intros k Hk. rewrite nth_upd_ne by lia. apply H. lia.
Qed.

Lemma holds_hole : forall (P : A -> Prop) b m k, b <> k -> holds P m k -> holds P (upd b Moved m) k.
Proof. intros. eapply holds_ext; [|eauto]. now rewrite nth_upd_ne. Qed.

(** The two first scans. *)
Lemma first_scans_wp : forall X b e pivot s W (Q : X -> mem A -> Prop) (K : nat -> nat -> M A X),
  full (S b) e W -> b < s < e -> L pivot false W s ->
  (forall first last, b < first < e -> last <= e ->
     (forall j, b < j < first -> L pivot true W j) -> L pivot false W first ->
     (forall j, last < j < e -> L pivot false W j) -> (first < last -> last < e /\ L pivot true W last) ->
     wp (K first last) Q W) ->
  wp (let* first := scan_up (fun x => comp (proj x) (proj pivot)) (e - b) b in
      let* last := (if first - 1 =? b
        then scan_down_guarded (fun x => negb (comp (proj x) (proj pivot))) first e
        else scan_down (fun x => negb (comp (proj x) (proj pivot))) e) in
      K first last) Q W.
Proof.
  intros X b e pivot s W Q K Hf Hs HLs HK. apply wp_bind.
  eapply wp_mono; [apply scan_up_wp with (k := s); try lia; auto; eapply full_sub; eauto; lia|].
  intros first m' (-> & Hfi & Hff & Hft). cbv beta in *.
  assert (forall j, L pivot false W j <-> holds (fun x => negb (comp (proj x) (proj pivot)) = true) W j) as Hn1.
  { intros j. split; intros (a & Ha & E); exists a; split; auto; unfold by_proj in *; destruct (comp (proj a) (proj pivot)); simpl in *; congruence. }
  assert (forall j, L pivot true W j <-> holds (fun x => negb (comp (proj x) (proj pivot)) = false) W j) as Hn2.
  { intros j. split; intros (a & Ha & E); exists a; split; auto; unfold by_proj in *; destruct (comp (proj a) (proj pivot)); simpl in *; congruence. }
  apply wp_bind. destruct (Nat.eqb_spec (first - 1) b) as [E|E].
  - eapply wp_mono; [apply scan_down_guarded_wp; [lia|eapply full_sub; eauto; lia]|].
    intros last m' (-> & Hla & H1 & H2). apply HK; auto; try lia.
    + intros j Hj. apply Hn1. auto.
    + intros Hlt. destruct (H2 Hlt). split; auto. apply Hn2; auto.
  - eapply wp_mono; [apply scan_down_wp with (k := S b); [lia| |]|].
    + eapply full_sub; eauto; lia.
    + apply Hn2. apply Hft. lia.
    + intros last m' (-> & Hla & H1 & H2). apply HK; auto; try lia.
      * intros j Hj. apply Hn1. auto.
      * intros Hlt. split; [lia|]. apply Hn2; auto.
Qed.

Lemma partition_right_wp : forall b e pivot s m, full b e m -> nth_error m b = Some (Val pivot) ->
  b < s < e -> L pivot false m s ->
  wp (partition_right comp proj true b e) (fun '(p, _) m' => part_right b e p pivot m m') m.
Proof.
  intros b e pivot s m Hf Hb Hs HLs. unfold partition_right. apply wp_bind. eapply wp_take; eauto.
  pose proof (full_hole b e m Hf) as HfW. set (W := upd b Moved m) in *.
  assert (L pivot false W s) as HLW by (apply holds_hole; auto; lia).
  apply first_scans_wp with (s := s); auto.
  intros first last Hfi Hla H1 H2 H3 H4. cbv zeta.
  generalize (last <=? first). intros already.
  apply wp_bind.
  apply wp_loop' with (I := fun '(first, last) W' => pm (S b) e W W' /\ b < first < e /\ last <= e /\
      (forall j, b < j < first -> L pivot true W' j) /\ L pivot false W' first /\
      (forall j, last < j < e -> L pivot false W' j) /\ (first < last -> last < e /\ L pivot true W' last))
    (mu := fun '(first, _) => e - first).
  - cj; auto using pm_refl; lia.
  - lia.
  - clear first last Hfi Hla H1 H2 H3 H4.
    intros [first last] W' (HP & Hfi & Hla & H1 & H2 & H3 & H4).
    assert (full (S b) e W') as HfW' by (eapply pm_full; eauto).
    destruct (Nat.ltb_spec first last) as [Hlt|Hge].
    + destruct (H4 Hlt) as [Hle HLl]. apply wp_bind.
      eapply wp_swap_pm with (f := S b) (l := e); eauto; try lia.
      intros W2 HP2 HS2. assert (full (S b) e W2) as HfW2 by (eapply pm_full; eauto).
      assert (forall c, L pivot c W2 last <-> L pivot c W' first) as EL.
      { intros c. split; intros HH; eapply holds_ext; try exact HH; rewrite HS2, tr_r; auto. }
      assert (forall c, L pivot c W2 first <-> L pivot c W' last) as EF.
      { intros c. split; intros HH; eapply holds_ext; try exact HH; rewrite HS2, tr_l; auto. }
      apply wp_bind. eapply wp_mono.
      { apply scan_up_wp with (k := last); try lia. { eapply full_sub; eauto; lia. } apply EL. auto. }
      intros first' m' (-> & F1 & F2 & F3). cbv beta in *.
      apply wp_bind. eapply wp_mono.
      { apply scan_down_wp with (k := first); try lia. { eapply full_sub; eauto; lia. }
        apply holds_weaken with (P := fun x => lt x pivot = true). { apply EF; auto. }
        intros a Ha. unfold by_proj in Ha. now rewrite Ha. }
      intros last' m' (-> & G1 & G2 & G3). cbv beta in *. apply wp_ret. split; [|lia].
      cj; auto; try lia.
      * eapply pm_trans; eauto.
      * intros j Hj. destruct (Nat.lt_trichotomy j first) as [K|[->|K]].
        -- eapply holds_ext; [rewrite HS2, tr_o by lia; reflexivity|]. apply H1. lia.
        -- apply EF; auto.
        -- apply F3. lia.
      * intros j Hj. destruct (Nat.lt_trichotomy j last) as [K|[->|K]].
        -- eapply holds_weaken; [apply G3; lia|]. intros a Ha. cbv beta in Ha. unfold by_proj.
           destruct (comp (proj a) (proj pivot)); simpl in *; congruence.
        -- apply EL; auto.
        -- eapply holds_ext; [rewrite HS2, tr_o by lia; reflexivity|]. apply H3. lia.
      * intros _. split; [lia|]. eapply holds_weaken; [apply G2|]. intros a Ha. cbv beta in Ha. unfold by_proj.
        destruct (comp (proj a) (proj pivot)); simpl in *; congruence.
    + apply wp_ret. eapply part_right_back; eauto; try lia.
      intros j Hj. destruct (Nat.eq_dec j first) as [->|]; auto. apply H3. lia.
Qed.

Lemma partition_right_branchless_wp : forall b e pivot s m, full b e m -> nth_error m b = Some (Val pivot) ->
  b < s < e -> L pivot false m s ->
  wp (partition_right_branchless comp proj true b e) (fun '(p, _) m' => part_right b e p pivot m m') m.
Proof.
  intros b e pivot s m Hf Hb Hs HLs. unfold partition_right_branchless. apply wp_bind. eapply wp_take; eauto.
  pose proof (full_hole b e m Hf) as HfW. set (W := upd b Moved m) in *.
  assert (L pivot false W s) as HLW by (apply holds_hole; auto; lia).
  apply first_scans_wp with (s := s); auto.
  intros first last Hfi Hla H1 H2 H3 H4. cbv zeta.
  apply wp_bind. destruct (Nat.leb_spec last first) as [Hge|Hlt]; cbn [negb].
  - apply wp_ret. eapply part_right_back; eauto; try lia.
    + apply pm_refl.
    + intros j Hj. destruct (Nat.eq_dec j first) as [->|]; auto. apply H3. lia.
  - destruct (H4 Hlt) as [Hle HLl]. apply wp_bind.
    eapply wp_swap_pm with (f := S b) (l := e); eauto; try lia.
    intros W2 HP2 HS2. assert (full (S b) e W2) as HfW2 by (eapply pm_full; eauto).
    eapply wp_mono.
    { apply block_partition_wp with (b := b) (e := e); auto; try lia.
      - intros j Hj. destruct (Nat.eq_dec j first) as [->|].
        + eapply holds_ext; [rewrite HS2, tr_l; reflexivity|]. auto.
        + eapply holds_ext; [rewrite HS2, tr_o by lia; reflexivity|]. apply H1. lia.
      - intros j Hj. destruct (Nat.eq_dec j last) as [->|].
        + eapply holds_ext; [rewrite HS2, tr_r; reflexivity|]. auto.
        + eapply holds_ext; [rewrite HS2, tr_o by lia; reflexivity|]. apply H3. lia. }
    intros r W3 (HP3 & Hr & J1 & J2). eapply part_right_back; eauto.
    eapply pm_trans; eauto.
Qed.

Notation G pivot b := (holds (fun x => lt pivot x = b)).

Lemma partition_left_wp : forall b e pivot s m, full b e m -> nth_error m b = Some (Val pivot) ->
  b < s < e -> G pivot false m s ->
  wp (partition_left comp proj true b e) (fun p m' =>
    pm b e m m' /\ b <= p < e /\ nth_error m' p = Some (Val pivot) /\
    (forall j, b <= j < p -> G pivot false m' j) /\ (forall j, p < j < e -> G pivot true m' j)) m.
Proof.
  intros b e pivot s m Hf Hb Hs HLs. unfold partition_left. apply wp_bind. eapply wp_take; eauto.
  pose proof (full_hole b e m Hf) as HfW. set (W := upd b Moved m) in *.
  assert (G pivot false W s) as HLW by (apply holds_hole; auto; lia).
  assert (forall W j c, G pivot c W j <-> holds (fun x => negb (comp (proj pivot) (proj x)) = negb c) W j) as Hn.
  { intros V j c. split; intros (a & Ha & E); exists a; split; auto; unfold by_proj in *;
    destruct (comp (proj pivot) (proj a)), c; simpl in *; congruence. }
  assert (forall (Q : nat -> mem A -> Prop) (K : nat -> nat -> M A nat),
    (forall first last, b <= first -> b < last < e ->
       G pivot false W last -> (forall j, last < j < e -> G pivot true W j) ->
       (forall j, b < j < first -> G pivot false W j) -> (first < last -> b < first /\ G pivot true W first) ->
       wp (K first last) Q W) ->
    wp (let* last := scan_down (fun x => comp (proj pivot) (proj x)) e in
        let* first := (if last + 1 =? e
          then scan_up_guarded (fun x => negb (comp (proj pivot) (proj x))) b last
          else scan_up (fun x => negb (comp (proj pivot) (proj x))) (e - b) b) in
        K first last) Q W) as HSC.
  { intros Q K HK. apply wp_bind. eapply wp_mono.
    { apply scan_down_wp with (k := s); try lia; auto. eapply full_sub; eauto; lia. }
    intros last m' (-> & L1 & L2 & L3). cbv beta in *. apply wp_bind.
    destruct (Nat.eqb_spec (last + 1) e) as [E|E].
    - eapply wp_mono; [apply scan_up_guarded_wp; [lia|eapply full_sub; eauto; lia]|].
      intros first m' (-> & F1 & F2 & F3). apply HK; auto; try lia.
      + intros j Hj. apply Hn. apply F2. lia.
      + intros Hlt. destruct (F3 Hlt). split; auto. apply Hn; auto.
    - eapply wp_mono; [apply scan_up_wp with (k := e - 1); try lia|].
      + eapply full_sub; eauto; lia.
      + apply (Hn W (e - 1) true). apply L3. lia.
      + intros first m' (-> & F1 & F2 & F3). apply HK; auto; try lia.
        * intros j Hj. apply Hn. apply F3. lia.
        * intros Hlt. split; [lia|]. apply Hn; auto. }
  apply HSC. clear HSC. intros first last Hfi Hla H1 H2 H3 H4.
  apply wp_bind.
  apply wp_loop' with (I := fun '(first, last) W' => pm (S b) e W W' /\ b <= first /\ b < last < e /\
       G pivot false W' last /\ (forall j, last < j < e -> G pivot true W' j) /\
       (forall j, b < j < first -> G pivot false W' j) /\ (first < last -> b < first /\ G pivot true W' first))
    (mu := fun '(_, last) => last - b).
  - cj; auto using pm_refl; lia.
  - lia.
  - clear first last Hfi Hla H1 H2 H3 H4.
    intros [first last] W' (HP & Hfi & Hla & H1 & H2 & H3 & H4).
    assert (full (S b) e W') as HfW' by (eapply pm_full; eauto).
    destruct (Nat.ltb_spec first last) as [Hlt|Hge].
    + destruct (H4 Hlt) as [Hle HLl]. apply wp_bind.
      eapply wp_swap_pm with (f := S b) (l := e); eauto; try lia.
      intros W2 HP2 HS2. assert (full (S b) e W2) as HfW2 by (eapply pm_full; eauto).
      assert (forall c, G pivot c W2 last <-> G pivot c W' first) as EL.
      { intros c. split; intros HH; eapply holds_ext; try exact HH; rewrite HS2, tr_r; auto. }
      assert (forall c, G pivot c W2 first <-> G pivot c W' last) as EF.
      { intros c. split; intros HH; eapply holds_ext; try exact HH; rewrite HS2, tr_l; auto. }
      apply wp_bind. eapply wp_mono.
      { apply scan_down_wp with (k := first); try lia. { eapply full_sub; eauto; lia. } apply EF. auto. }
      intros last' m' (-> & F1 & F2 & F3). cbv beta in *.
      apply wp_bind. eapply wp_mono.
      { apply scan_up_wp with (k := last); try lia. { eapply full_sub; eauto; lia. }
        apply (Hn W2 last true). apply EL; auto. }
      intros first' m' (-> & G1 & G2 & G3). cbv beta in *. apply wp_ret. split; [|lia].
      cj; auto; try lia.
      * eapply pm_trans; eauto.
      * intros j Hj. destruct (Nat.lt_trichotomy j last) as [K|[->|K]].
        -- apply F3. lia.
        -- apply EL; auto.
        -- eapply holds_ext; [rewrite HS2, tr_o by lia; reflexivity|]. apply H2. lia.
      * intros j Hj. destruct (Nat.lt_trichotomy j first) as [K|[->|K]].
        -- eapply holds_ext; [rewrite HS2, tr_o by lia; reflexivity|]. apply H3. lia.
        -- apply EF; auto.
        -- apply Hn. apply G3. lia.
      * intros _. split; [lia|]. apply Hn. auto.
    + apply wp_ret. cbv zeta. eapply pivot_back_wp; eauto; try lia.
      intros m' HP' Hp Q1 Q2. cj; auto; try lia.
      * intros j Hj. destruct (Nat.eq_dec j b) as [->|].
        -- eapply holds_ext; [apply Q1; lia|]. auto.
        -- eapply holds_ext; [apply Q2; lia|]. apply H3. lia.
      * intros j Hj. eapply holds_ext; [apply Q2; lia|]. apply H2. lia.
Qed.

(** ** The insertion sorts *)
Lemma unguarded_sift_wp : forall pre z post s y s2 x fuel,
  (forall w, In w (y :: s2) -> lt x w = true) -> lt x z = false -> length s + 1 < fuel ->
  wp (loop fuel (fun '(sift, sift_1) =>
        move_to sift_1 sift ;;
        let sift := sift - 1 in
        if sift_1 =? 0 then ub else
        let sift_1 := sift_1 - 1 in
        let* y := get sift_1 in
        if comp (proj x) (proj y) then ret (inl (sift, sift_1)) else ret (inr sift))
      (length pre + 1 + S (length s), length pre + 1 + length s))
     (fun sift m' => exists s1 s3, s ++ [y] ++ s2 = s1 ++ s3 /\ inserts comp proj x s1 s3 /\
        sift = length pre + 1 + length s1 /\
        m' = (pre ++ [Val z]) ++ map Val s1 ++ Moved :: map Val s3 ++ post)
     ((pre ++ [Val z]) ++ map Val s ++ Val y :: Moved :: map Val s2 ++ post).
Proof.
  intros pre z post s y s2 x fuel Hx Hz Hfuel.
  apply wp_loop' with
    (I := fun '(sift, sift_1) m => exists s' y' s2',
        s ++ [y] ++ s2 = s' ++ [y'] ++ s2' /\
        (forall z, In z (y' :: s2') -> lt x z = true) /\
        sift = length pre + 1 + S (length s') /\ sift_1 = length pre + 1 + length s' /\
        m = (pre ++ [Val z]) ++ map Val s' ++ Val y' :: Moved :: map Val s2' ++ post)
    (mu := fun '(sift, _) => sift - (length pre + 1)).
  - exists s, y, s2. auto.
  - lia.
  - intros [sift sift_1] m (s' & y' & s2' & E & Hx' & -> & -> & ->).
    apply wp_bind. reshape ((pre ++ [Val z] ++ map Val s') ++ Val y' :: [] ++ Moved :: map Val s2' ++ post).
    apply (wp_move_to_right (pre ++ [Val z] ++ map Val s') []); try (lensr; fail); [congruence|].
    simpl app.
    destruct (Nat.eqb_spec (length pre + 1 + length s') 0) as [E0|E0]; [lia|].
    destruct s' as [|w s'' _] using rev_ind.
    + apply wp_bind. reshape (pre ++ Val z :: Moved :: map Val (y' :: s2') ++ post).
      apply wp_get_at. { lensr. }
      change (comp (proj x) (proj z)) with (lt x z). rewrite Hz. apply wp_ret.
      exists [], (y' :: s2'). simpl in *. repeat split; auto. lia. solve_app.
    + apply wp_bind. reshape ((pre ++ [Val z] ++ map Val s'') ++ Val w :: Moved :: map Val (y' :: s2') ++ post).
      apply wp_get_at. { lensr. }
      destruct (comp (proj x) (proj w)) eqn:C; apply wp_ret.
      * split; [|lensr]. exists s'', w, (y' :: s2').
        rewrite E. repeat split; auto.
        -- solve_app.
        -- simpl. intros v [<-|Hv]; auto.
        -- lensr.
        -- lensr.
        -- solve_app.
      * exists (s'' ++ [w]), (y' :: s2'). repeat split; auto.
        -- right. exists s'', w. auto.
        -- lensr.
        -- solve_app.
Qed.

Lemma inserts_None : forall x s y, lt x y = false -> inserts comp proj x (s ++ [y]) [].
Proof. intros. split; [simpl; tauto|]. right. eauto. Qed.

Lemma unguarded_insertion_sort_wp : strict_weak_order lt -> forall pre z xs post,
  (forall x, In x xs -> lt x z = false) ->
  wp (unguarded_insertion_sort comp proj (length pre + 1) (length pre + 1 + length xs))
     (fun _ m' => m' = (pre ++ [Val z]) ++ map Val (ssort lt xs) ++ post)
     ((pre ++ [Val z]) ++ map Val xs ++ post).
Proof.
  intros HW pre z xs post Hz. unfold unguarded_insertion_sort.
  destruct (Nat.eqb_spec (length pre + 1) (length pre + 1 + length xs)) as [E|E].
  { apply wp_ret. destruct xs; [|simpl in E; lia]. auto. }
  apply wp_loop' with
    (I := fun cur m => exists xs1 xs2, xs = xs1 ++ xs2 /\ xs1 <> [] /\
        cur = length pre + 1 + length xs1 /\ m = (pre ++ [Val z]) ++ map Val (ssort lt xs1 ++ xs2) ++ post)
    (mu := fun cur => length pre + 1 + length xs - cur).
  - destruct xs as [|x xs]; [simpl in E; lia|].
    exists [x], xs. simpl. repeat split; auto; try congruence. lia.
  - lensr.
  - intros cur m (xs1 & xs2 & -> & Hs & -> & ->).
    destruct (Nat.eqb_spec (length pre + 1 + length xs1) (length pre + 1 + length (xs1 ++ xs2))) as [E1|E1].
    + apply wp_ret. destruct xs2; [|lensr]. now rewrite !app_nil_r.
    + destruct xs2 as [|x xs2]; [lensr|].
      assert (length (ssort lt xs1) = length xs1) as HL by apply ssort_length.
      destruct (ssort lt xs1) as [|y s _] eqn:ES using rev_ind.
      { destruct xs1; [congruence|simpl in HL; lia]. }
      rewrite app_length in HL. simpl in HL.
      apply wp_bind. eapply wp_less_at.
      { apply nth_shape with (l1 := pre ++ [Val z] ++ map Val s ++ [Val y]) (l2 := map Val xs2 ++ post) (c := Val x); [solve_app|lensr]. }
      { apply nth_shape with (l1 := pre ++ [Val z] ++ map Val s) (l2 := Val x :: map Val xs2 ++ post) (c := Val y); [solve_app|lensr]. }
      destruct (lt x y) eqn:C.
      * apply wp_bind, wp_bind.
        reshape ((pre ++ [Val z] ++ map Val s ++ [Val y]) ++ Val x :: map Val xs2 ++ post).
        apply wp_take_at; [lensr|]. apply wp_bind.
        reshape ((pre ++ [Val z]) ++ map Val s ++ Val y :: Moved :: map Val [] ++ map Val xs2 ++ post).
        replace (length pre + 1 + length xs1 - 1) with (length pre + 1 + length s) by lia.
        replace (length pre + 1 + length xs1) with (length pre + 1 + S (length s)) by lia.
        eapply wp_mono.
        { apply unguarded_sift_wp; [|apply Hz; apply in_or_app; simpl; auto|lia].
          intros w [<-|[]]. exact C. }
        intros sift m (s1 & s3 & E2 & Hi & -> & ->).
        reshape ((pre ++ [Val z] ++ map Val s1) ++ Moved :: map Val s3 ++ map Val xs2 ++ post).
        apply wp_put_at; [lensr|congruence|]. apply wp_ret. split; [|lensr].
        exists (xs1 ++ [x]), xs2. split; [now rewrite <- app_assoc|].
        split. { destruct xs1; simpl; congruence. }
        split. { lensr. }
        rewrite <- (inserts_ssort comp proj HW xs1 s1 s3 x).
        -- solve_app.
        -- rewrite ES, <- E2. now rewrite app_nil_r.
        -- auto.
      * apply wp_bind, wp_ret. apply wp_ret. split; [|lensr].
        exists (xs1 ++ [x]), xs2. split; [now rewrite <- app_assoc|].
        split. { destruct xs1; simpl; congruence. }
        split. { lensr. }
        rewrite <- (inserts_ssort comp proj HW xs1 (s ++ [y]) [] x).
        -- solve_app.
        -- now rewrite ES, app_nil_r.
        -- now apply inserts_None.
Qed.

Lemma partial_insertion_sort_wp : strict_weak_order lt -> forall pre xs post,
  wp (partial_insertion_sort comp proj (length pre) (length pre + length xs))
     (fun r m' => exists ys, m' = pre ++ map Val ys ++ post /\ Permutation xs ys /\ (r = true -> sorted lt ys))
     (pre ++ map Val xs ++ post).
Proof.
  intros HW pre xs post. unfold partial_insertion_sort.
  destruct (Nat.eqb_spec (length pre) (length pre + length xs)) as [E|E].
  { apply wp_ret. destruct xs; [|simpl in E; lia]. exists []. cj; auto. intros _. apply sorted_nil. }
  apply wp_loop' with
    (I := fun '(cur, limit) m => exists xs1 xs2, xs = xs1 ++ xs2 /\ xs1 <> [] /\
        cur = length pre + length xs1 /\ m = pre ++ map Val (ssort lt xs1 ++ xs2) ++ post)
    (mu := fun '(cur, _) => length pre + length xs - cur).
  - destruct xs as [|x xs]; [simpl in E; lia|].
    exists [x], xs. simpl. repeat split; auto; try congruence. lia.
  - lensr.
  - intros [cur limit] m (xs1 & xs2 & -> & Hs & -> & ->).
    destruct (Nat.eqb_spec (length pre + length xs1) (length pre + length (xs1 ++ xs2))) as [E1|E1].
    + apply wp_ret. destruct xs2; [|lensr]. rewrite !app_nil_r. exists (ssort lt xs1). cj; auto using ssort_perm.
      intros _. now apply ssort_sorted.
    + destruct xs2 as [|x xs2]; [lensr|].
      assert (length (ssort lt xs1) = length xs1) as HL by apply ssort_length.
      assert (forall s1 s3 limit', ssort lt xs1 = s1 ++ s3 -> inserts comp proj x s1 s3 ->
        wp (if partial_insertion_sort_limit <? limit' then ret (inr false)
            else ret (inl (S (length pre + length xs1), limit')))
          (fun r m' => match r with
           | inl s' => (let '(cur, _) := s' in fun m => exists xs3 xs4, xs1 ++ x :: xs2 = xs3 ++ xs4 /\ xs3 <> [] /\
                cur = length pre + length xs3 /\ m = pre ++ map Val (ssort lt xs3 ++ xs4) ++ post) m' /\
                (let '(cur, _) := s' in length pre + length (xs1 ++ x :: xs2) - cur)
                  < length pre + length (xs1 ++ x :: xs2) - (length pre + length xs1)
           | inr x0 => exists ys, m' = pre ++ map Val ys ++ post /\ Permutation (xs1 ++ x :: xs2) ys /\
               (x0 = true -> sorted lt ys)
           end) (pre ++ map Val (s1 ++ x :: s3) ++ map Val xs2 ++ post)) as HEND.
      { intros s1 s3 limit' ES Hi.
        pose proof (inserts_ssort comp proj HW xs1 s1 s3 x ES Hi) as E2. rewrite E2.
        destruct (partial_insertion_sort_limit <? limit'); apply wp_ret.
        - exists (ssort lt (xs1 ++ [x]) ++ xs2). split; [solve_app|]. split; [|discriminate].
          change (x :: xs2) with ([x] ++ xs2). rewrite app_assoc. apply Permutation_app_tail, ssort_perm.
        - split; [|lensr]. exists (xs1 ++ [x]), xs2. split; [now rewrite <- app_assoc|].
          split. { destruct xs1; simpl; congruence. }
          split. { lensr. }
          solve_app. }
      destruct (ssort lt xs1) as [|y s _] eqn:ES using rev_ind.
      { destruct xs1; [congruence|simpl in HL; lia]. }
      rewrite app_length in HL. simpl in HL.
      apply wp_bind. eapply wp_less_at.
      { apply nth_shape with (l1 := pre ++ map Val s ++ [Val y]) (l2 := map Val xs2 ++ post) (c := Val x); [solve_app|lensr]. }
      { apply nth_shape with (l1 := pre ++ map Val s) (l2 := Val x :: map Val xs2 ++ post) (c := Val y); [solve_app|lensr]. }
      destruct (lt x y) eqn:C.
      * apply wp_bind, wp_bind.
        reshape ((pre ++ map Val s ++ [Val y]) ++ Val x :: map Val xs2 ++ post).
        apply wp_take_at; [lensr|]. apply wp_bind.
        reshape (pre ++ map Val s ++ Val y :: Moved :: map Val [] ++ map Val xs2 ++ post).
        pose proof (insertion_sift_wp comp proj pre (map Val xs2 ++ post) s y [] x) as HSF.
        unfold insertion_sift in HSF.
        replace (length pre + length xs1 - 1) with (length pre + length s) by lia.
        replace (length pre + length xs1) with (length pre + S (length s)) at 1 2 by lia.
        eapply wp_mono.
        { apply HSF. intros w [<-|[]]. exact C. }
        clear HSF. intros sift m (s1 & s3 & E2 & Hi & -> & ->). cbv beta.
        apply wp_bind.
        reshape ((pre ++ map Val s1) ++ Moved :: map Val s3 ++ map Val xs2 ++ post).
        apply wp_put_at; [lensr|congruence|].
        reshape (pre ++ map Val (s1 ++ x :: s3) ++ map Val xs2 ++ post).
        apply wp_ret. apply HEND; auto.
      * reshape (pre ++ map Val ((s ++ [y]) ++ [x]) ++ map Val xs2 ++ post). apply wp_bind, wp_ret.
        apply HEND; [now rewrite app_nil_r|]. now apply inserts_None.
Qed.

(** ** Index versions *)
Lemma unguarded_index_wp : strict_weak_order lt -> forall f l z m, 0 < f -> f <= l -> full f l m ->
  nth_error m (f - 1) = Some (Val z) -> range_all (fun x => lt x z = false) f l m ->
  wp (unguarded_insertion_sort comp proj f l) (fun _ m' => pm f l m m' /\ sorted_range lt f l m') m.
Proof.
  intros HW f l z m H0 Hfl Hf Hz HR.
  destruct (full_decomp m f l Hfl Hf) as (pre & xs & post & -> & Hp & Hx).
  rewrite nth_error_app1 in Hz by lia.
  destruct pre as [|c pre _] using rev_ind; [simpl in Hp; lia|].
  rewrite app_length in Hp. simpl in Hp.
  replace (f - 1) with (length pre) in Hz by lia. rewrite nth_mid in Hz. injection Hz as ->.
  replace l with (length pre + 1 + length xs) in * by lia. replace f with (length pre + 1) in * by lia.
  eapply wp_mono; [apply unguarded_insertion_sort_wp; auto|].
  - intros x Hin. apply In_nth_error in Hin as (k & Hk).
    apply (HR (length pre + 1 + k)). { apply nth_lt in Hk. lia. }
    replace (length pre + 1 + k) with (length (pre ++ [Val z]) + k) by lensr.
    rewrite nth_pre_map_post, Hk; auto. eapply nth_lt; eauto.
  - intros u m' ->.
    replace (length pre + 1) with (length (pre ++ [Val z])) by lensr.
    split.
    + apply pm_intro. apply ssort_perm.
    + rewrite <- (ssort_length lt xs). apply list_sorted_range. now apply ssort_sorted.
Qed.

Lemma partial_index_wp : strict_weak_order lt -> forall f l m, f <= l -> full f l m ->
  wp (partial_insertion_sort comp proj f l) (fun r m' => pm f l m m' /\ (r = true -> sorted_range lt f l m')) m.
Proof.
  intros HW f l m Hfl Hf.
  destruct (full_decomp m f l Hfl Hf) as (pre & xs & post & -> & Hp & Hx).
  replace l with (length pre + length xs) in * by lia. subst f.
  eapply wp_mono; [apply partial_insertion_sort_wp; auto|].
  intros r m' (ys & -> & HP & HS). split.
  - now apply pm_intro.
  - intros Hr. rewrite (Permutation_length HP). apply list_sorted_range. auto.
Qed.

Lemma sort3_wp : strict_weak_order lt -> forall f l a b c m, full f l m ->
  f <= a < l -> f <= b < l -> f <= c < l -> a <> b -> a <> c -> b <> c ->
  wp (iter_sort3 comp proj a b c) (fun r m' => r = b /\ pm f l m m' /\
    (forall k, k <> a -> k <> b -> k <> c -> nth_error m' k = nth_error m k) /\
    exists x y z, nth_error m' a = Some (Val x) /\ nth_error m' b = Some (Val y) /\
    nth_error m' c = Some (Val z) /\ lt y x = false /\ lt z y = false) m.
Proof.
  intros HW f l a b c m Hf Ha Hb Hc Hab Hac Hbc. unfold iter_sort3.
  apply wp_bind. eapply wp_iter_swap_if_pm with (f := f) (l := l); eauto.
  intros m1 y1 z1 HP1 Ey1 Ez1 L1 D1.
  assert (full f l m1) as Hf1 by (eapply pm_full; eauto).
  apply wp_bind. eapply wp_iter_swap_if_pm with (f := f) (l := l); eauto.
  intros m2 x2 z2 HP2 Ex2 Ez2 L2 D2.
  assert (full f l m2) as Hf2 by (eapply pm_full; eauto).
  apply wp_bind. eapply wp_iter_swap_if_pm with (f := f) (l := l); eauto.
  intros m3 x3 y3 HP3 Ex3 Ey3 L3 D3. apply wp_ret.
  assert (nth_error m2 b = Some (Val y1)) as Ey2.
  { destruct D2 as [D2| ->]; auto. rewrite D2, tr_o; auto. }
  assert (nth_error m3 c = Some (Val z2)) as Ez3.
  { destruct D3 as [D3| ->]; auto. rewrite D3, tr_o; auto. }
  assert (lt z2 y1 = false) as Lzy.
  { destruct D2 as [D2| ->].
    - rewrite D2, tr_l in Ex2. assert (x2 = z1) as -> by congruence. eapply (le_trans lt HW); eauto.
    - congruence. }
  assert ((y3 = y1 /\ x3 = x2) \/ (y3 = x2 /\ x3 = y1)) as DD.
  { destruct D3 as [D3| ->].
    - right. rewrite D3, tr_l in Ex3. rewrite D3, tr_r in Ey3. split; congruence.
    - left. split; congruence. }
  cj; auto.
  - eapply pm_trans; eauto. eapply pm_trans; eauto.
  - intros k K1 K2 K3.
    transitivity (nth_error m2 k); [|transitivity (nth_error m1 k)].
    + destruct D3 as [D3| ->]; auto. rewrite D3, tr_o; auto.
    + destruct D2 as [D2| ->]; auto. rewrite D2, tr_o; auto.
    + destruct D1 as [D1| ->]; auto. rewrite D1, tr_o; auto.
  - exists x3, y3, z2. cj; auto. destruct DD as [[-> ->]|[-> ->]]; auto.
Qed.

Lemma choose_pivot_wp : strict_weak_order lt -> forall b e m, full b e m -> 24 <= e - b ->
  wp (choose_pivot comp proj b e) (fun _ m' => pm b e m m' /\ exists pivot, nth_error m' b = Some (Val pivot) /\
    (exists s, b < s < e /\ L pivot false m' s) /\ (exists s, b < s < e /\ G pivot false m' s)) m.
Proof.
  intros HW b e m Hf Hsz. unfold choose_pivot.
  assert (2 * ((e - b) / 2) <= e - b) as Hd by (apply Nat.mul_div_le; lia).
  assert (12 <= (e - b) / 2) as Hd2. { apply Nat.div_le_lower_bound; lia. }
  set (s2 := (e - b) / 2) in *. clearbody s2.
  destruct (Nat.ltb_spec ninther_threshold (e - b)) as [Hn|Hn]; unfold ninther_threshold in Hn.
  - apply wp_bind. eapply wp_mono; [apply (sort3_wp HW b e); auto; lia|]. intros u m1 (_ & HP1 & _). cbv beta. clear u.
    assert (full b e m1) as Hf1 by (eapply pm_full; eauto).
    apply wp_bind. eapply wp_mono; [apply (sort3_wp HW b e); auto; lia|]. intros u m2 (_ & HP2 & _). cbv beta. clear u.
    assert (full b e m2) as Hf2 by (eapply pm_full; eauto).
    apply wp_bind. eapply wp_mono; [apply (sort3_wp HW b e); auto; lia|]. intros u m3 (_ & HP3 & _). cbv beta. clear u.
    assert (full b e m3) as Hf3 by (eapply pm_full; eauto).
    apply wp_bind. eapply wp_mono; [apply (sort3_wp HW b e); auto; lia|].
    intros u m4 (_ & HP4 & _ & x & y & z & Ex & Ey & Ez & L1 & L2). cbv beta. clear u.
    assert (full b e m4) as Hf4 by (eapply pm_full; eauto).
    eapply wp_swap_pm with (f := b) (l := e); auto; try lia.
    intros m5 HP5 HS5. split.
    { eapply pm_trans; [exact HP1|]. eapply pm_trans; [exact HP2|]. eapply pm_trans; [exact HP3|]. eapply pm_trans; eauto. }
    exists y. split. { rewrite HS5, tr_l. auto. } split.
    + exists (b + (s2 + 1)). split; [lia|]. exists z. split; auto. rewrite HS5, tr_o by lia. auto.
    + exists (b + (s2 - 1)). split; [lia|]. exists x. split; auto. rewrite HS5, tr_o by lia. auto.
  - apply wp_bind. eapply wp_mono; [apply (sort3_wp HW b e); auto; lia|].
    intros u m1 (_ & HP1 & _ & x & y & z & Ex & Ey & Ez & L1 & L2). apply wp_ret. split; auto.
    exists y. split; auto. split.
    + exists (e - 1). split; [lia|]. exists z. auto.
    + exists (b + s2). split; [lia|]. exists x. auto.
Qed.

Ltac step_swap f l Hf HP :=
  match type of Hf with full _ _ ?m0 =>
    eapply wp_swap_pm with (f := f) (l := l); [exact Hf|lia|lia|];
    let m' := fresh "m" in let HP' := fresh "HP" in
    intros m' HP' _; assert (full f l m') by (eapply pm_full; [exact HP'|exact Hf]);
    eapply pm_trans in HP'; [|exact HP]
  end.

Lemma break_patterns_wp : forall b e p m, full b p m -> full (S p) e m -> b <= p -> p < e ->
  wp (break_patterns b e p (p - b) (e - (p + 1))) (fun _ m' => exists m1, pm b p m m1 /\ pm (S p) e m1 m') m.
Proof.
  intros b e p m Hf1 Hf2 Hb He. unfold break_patterns, insertion_sort_threshold, ninther_threshold.
  assert (forall n, 4 * (n / 4) <= n < 4 * (n / 4) + 4) as Hd.
  { intros n. pose proof (Nat.div_mod n 4). pose proof (Nat.mod_upper_bound n 4). lia. }
  apply wp_bind. apply wp_mono with (Q := fun _ m1 => pm b p m m1).
  - destruct (Nat.leb_spec 24 (p - b)) as [K|K]; [|apply wp_ret, pm_refl].
    pose proof (Hd (p - b)) as Hq. set (q := (p - b) / 4) in *. clearbody q.
    apply wp_bind. eapply wp_swap_pm with (f := b) (l := p); eauto; try lia. intros m1 P1 _.
    assert (full b p m1) as F1 by (eapply pm_full; eauto).
    apply wp_bind. eapply wp_swap_pm with (f := b) (l := p); eauto; try lia. intros m2 P2 _.
    assert (full b p m2) as F2 by (eapply pm_full; eauto).
    pose proof (pm_trans _ _ _ _ _ P1 P2) as P12.
    destruct (Nat.ltb_spec 128 (p - b)) as [K'|K']; [|apply wp_ret; auto].
    apply wp_bind. eapply wp_swap_pm with (f := b) (l := p); eauto; try lia. intros m3 P3 _.
    assert (full b p m3) as F3 by (eapply pm_full; eauto).
    apply wp_bind. eapply wp_swap_pm with (f := b) (l := p); eauto; try lia. intros m4 P4 _.
    assert (full b p m4) as F4 by (eapply pm_full; eauto).
    apply wp_bind. eapply wp_swap_pm with (f := b) (l := p); eauto; try lia. intros m5 P5 _.
    assert (full b p m5) as F5 by (eapply pm_full; eauto).
    eapply wp_swap_pm with (f := b) (l := p); eauto; try lia. intros m6 P6 _.
    eapply pm_trans; [exact P12|]. eapply pm_trans; [exact P3|]. eapply pm_trans; [exact P4|].
    eapply pm_trans; eauto.
  - intros u m0 P0. cbv beta.
    assert (full (S p) e m0) as F0.
    { split. { rewrite (pm_length _ _ _ _ P0). apply Hf2. } intros k Hk. rewrite (pm_out _ _ _ _ k P0) by lia. apply Hf2. lia. }
    apply wp_mono with (Q := fun _ m1 => pm (S p) e m0 m1); [|eauto].
    destruct (Nat.leb_spec 24 (e - (p + 1))) as [K|K]; [|apply wp_ret, pm_refl].
    pose proof (Hd (e - (p + 1))) as Hq. set (q := (e - (p + 1)) / 4) in *. clearbody q.
    apply wp_bind. eapply wp_swap_pm with (f := S p) (l := e); eauto; try lia. intros m1 P1 _.
    assert (full (S p) e m1) as F1 by (eapply pm_full; eauto).
    apply wp_bind. eapply wp_swap_pm with (f := S p) (l := e); eauto; try lia. intros m2 P2 _.
    assert (full (S p) e m2) as F2 by (eapply pm_full; eauto).
    pose proof (pm_trans _ _ _ _ _ P1 P2) as P12.
    destruct (Nat.ltb_spec 128 (e - (p + 1))) as [K'|K']; [|apply wp_ret; auto].
    apply wp_bind. eapply wp_swap_pm with (f := S p) (l := e); eauto; try lia. intros m3 P3 _.
    assert (full (S p) e m3) as F3 by (eapply pm_full; eauto).
    apply wp_bind. eapply wp_swap_pm with (f := S p) (l := e); eauto; try lia. intros m4 P4 _.
    assert (full (S p) e m4) as F4 by (eapply pm_full; eauto).
    apply wp_bind. eapply wp_swap_pm with (f := S p) (l := e); eauto; try lia. intros m5 P5 _.
    assert (full (S p) e m5) as F5 by (eapply pm_full; eauto).
    eapply wp_swap_pm with (f := S p) (l := e); eauto; try lia. intros m6 P6 _.
    eapply pm_trans; [exact P12|]. eapply pm_trans; [exact P3|]. eapply pm_trans; [exact P4|].
    eapply pm_trans; eauto.
Qed.

(** Three consecutive parts: below the pivot, equivalent to it, above it. *)
Lemma sorted_split3 : strict_weak_order lt -> forall f p q l z m, sorted_range lt f p m -> sorted_range lt q l m ->
  range_all (fun x => lt z x = false) f p m ->
  range_all (fun x => lt z x = false /\ lt x z = false) p q m ->
  range_all (fun x => lt x z = false) q l m -> sorted_range lt f l m.
Proof.
  intros HW f p q l z m S1 S2 R1 R2 R3 i j x y Hi Hij Hj Ex Ey.
  destruct (Nat.lt_ge_cases j p) as [J|J]; [eapply (S1 i j); eauto|].
  destruct (Nat.lt_ge_cases i q) as [I|I]; [|eapply (S2 i j); eauto].
  assert (lt z x = false).
  { destruct (Nat.lt_ge_cases i p). eapply (R1 i); eauto. eapply (R2 i); eauto. }
  assert (lt y z = false).
  { destruct (Nat.lt_ge_cases j q). eapply (R2 j); eauto. eapply (R3 j); eauto; lia. }
  eapply (le_trans lt HW); eauto.
Qed.

Lemma sorted_pivot : strict_weak_order lt -> forall f p l z m, sorted_range lt f p m -> sorted_range lt (S p) l m ->
  nth_error m p = Some (Val z) -> range_all (fun x => lt z x = false) f p m ->
  range_all (fun x => lt x z = false) (S p) l m -> sorted_range lt f l m.
Proof.
  intros HW f p l z m S1 S2 E R1 R2. apply (sorted_split3 HW f p (S p) l z); auto.
  intros k a Hk Ha. replace k with p in Ha by lia. rewrite E in Ha. injection Ha as ->.
  split; apply (lt_irrefl lt HW).
Qed.

Lemma lt_le : strict_weak_order lt -> forall x z, lt x z = true -> lt z x = false.
Proof. intros HW x z H. apply (lt_asym lt HW); auto. Qed.

Lemma full_ext : forall f l (m m' : mem A), full f l m -> length m' = length m ->
  (forall k, f <= k < l -> nth_error m' k = nth_error m k) -> full f l m'.
Proof. intros f l m m' [HL Hf] HL' He. split; [lia|]. intros k Hk. rewrite He; auto. Qed.

Lemma pm_full_out : forall f l a b (m m' : mem A), pm f l m m' -> full a b m -> b <= f \/ l <= a -> full a b m'.
Proof.
  intros f l a b m m' HP Hf Ho. eapply full_ext; eauto. { eapply pm_length; eauto. }
  intros k Hk. eapply pm_out; eauto. lia.
Qed.

Lemma pm_range_out : forall P f l a b (m m' : mem A), pm f l m m' -> range_all P a b m -> b <= f \/ l <= a ->
  range_all P a b m'.
Proof. intros P f l a b m m' HP HR Ho. eapply range_all_ext; [|exact HR]. intros k Hk. eapply pm_out; eauto. lia. Qed.

Lemma pm_sorted_out : forall f l a b (m m' : mem A), pm f l m m' -> sorted_range lt a b m -> b <= f \/ l <= a ->
  sorted_range lt a b m'.
Proof.
  intros f l a b m m' HP HS Ho i j x y Hi Hij Hj Ex Ey.
  rewrite (pm_out _ _ _ _ i HP) in Ex by lia. rewrite (pm_out _ _ _ _ j HP) in Ey by lia. exact (HS i j x y Hi Hij Hj Ex Ey).
Qed.

Lemma range_all_weaken : forall (P P' : A -> Prop) f l m, (forall a, P a -> P' a) -> range_all P f l m -> range_all P' f l m.
Proof. intros P P' f l m H HR k a Hk Ha. eauto. Qed.

Lemma insertion_index_wp : strict_weak_order comp -> forall f l m, f <= l -> full f l m ->
  wp (insertion_sort comp proj f l) (fun _ m' => pm f l m m' /\ sorted_range lt f l m') m.
Proof.
  intros HC f l m Hfl Hf. apply (sorts_elim lt (insertion_sorter comp proj)); auto.
  intros pre xs post. destruct (insertion_sorts_stably comp proj HC pre xs post) as (ys & E & HP & HS & _).
  exists ys. split; auto. split; auto.
Qed.

Definition sentinel (leftmost : bool) (b e : nat) (m : mem A) : Prop :=
  leftmost = true \/ (0 < b /\ exists z, nth_error m (b - 1) = Some (Val z) /\ range_all (fun x => lt x z = false) b e m).

Lemma pdqsort_loop_wp : strict_weak_order comp -> forall branchless fuel b e bad leftmost m,
  e - b < fuel -> b <= e -> full b e m -> sentinel leftmost b e m ->
  wp (pdqsort_loop comp proj true branchless fuel b e bad leftmost) (fun _ m' => pm b e m m' /\ sorted_range lt b e m') m.
Proof.
  intros HC br fuel. assert (strict_weak_order lt) as HW by now apply swo_by_proj.
  induction fuel as [|fuel IH]; intros b e bad lm m Hfu Hbe Hf HS; [lia|].
  simpl. unfold insertion_sort_threshold.
  destruct (Nat.ltb_spec (e - b) 24) as [Hsz|Hsz].
  { destruct lm.
    - now apply insertion_index_wp.
    - destruct HS as [?|(H0 & z & Hz & HR)]; [discriminate|]. eapply unguarded_index_wp; eauto. }
  apply wp_bind. eapply wp_mono; [apply choose_pivot_wp; auto|].
  intros u m1 (HP1 & z & Ez & (sl & Hsl & SL) & (sg & Hsg & SG)). cbv beta. clear u.
  assert (full b e m1) as Hf1 by (eapply pm_full; eauto).
  assert (sentinel lm b e m1) as HS1.
  { destruct HS as [HS|(H0 & y & Hy & HR)]; [now left|right]. split; auto. exists y. split.
    - rewrite (pm_out _ _ _ _ _ HP1); auto. lia.
    - eapply pm_range_all; eauto. apply Hf. }
  apply wp_bind.
  apply wp_mono with (Q := fun r m' => m' = m1 /\ (r = true -> range_all (fun x => lt x z = false) b e m1)).
  { destruct lm. { apply wp_ret. split; auto. discriminate. }
    destruct HS1 as [?|(H0 & y & Hy & HR)]; [discriminate|].
    destruct (Nat.eqb_spec b 0); [lia|]. apply wp_bind.
    eapply (wp_less_at comp proj (b - 1) b y z); eauto. apply wp_ret. split; auto.
    intros Hc k a Hk Ha. apply (le_trans lt HW) with y.
    - now apply negb_true_iff in Hc.
    - eapply HR; eauto. }
  intros eq_left m' [-> Heq]. cbv beta.
  destruct eq_left.
  { (* every element is at least the pivot: gather the ones equivalent to it *)
    apply wp_bind. eapply wp_mono; [eapply partition_left_wp with (s := sg); eauto|].
    intros p m2 (HP2 & Hp & Ep & R1 & R2). cbv beta.
    assert (full b e m2) as Hf2 by (eapply pm_full; eauto).
    assert (range_all (fun x => lt x z = false) b e m2) as RB. { eapply pm_range_all; eauto. apply Hf1. }
    assert (forall k, b <= k < p -> holds (fun x => lt z x = false) m2 k) as R1' by exact R1.
    eapply wp_mono.
    { apply IH; try lia. { eapply full_sub; eauto; lia. }
      right. split; [lia|]. exists z. replace (p + 1 - 1) with p by lia. split; auto.
      intros k a Hk Ha. eapply (RB k); eauto. lia. }
    intros u m3 (HP3 & HS3). clear u. split.
    - eapply pm_trans; [exact HP1|]. eapply pm_trans; [exact HP2|]. eapply pm_widen; eauto; lia.
    - replace (p + 1) with (S p) in * by lia.
      apply (sorted_split3 HW b b (S p) e z); auto.
      + intros i j x y. lia.
      + intros k a. lia.
      + intros k a Hk Ha. rewrite (pm_out _ _ _ _ _ HP3) in Ha by lia. split.
        * destruct (Nat.eq_dec k p) as [->|]. { rewrite Ep in Ha. injection Ha as ->. apply (lt_irrefl lt HW). }
          destruct (R1' k) as (x & Ex & Hx). lia. congruence.
        * eapply (RB k); eauto. lia.
      + eapply pm_range_all; [exact HP3| |]. { apply Hf2. }
        intros k a Hk Ha. eapply (RB k); eauto. lia. }
  (* the general case *)
  clear Heq.
  apply wp_bind.
  apply wp_mono with (Q := fun '(p, _) m' => part_right b e p z m1 m').
  { destruct br.
    - eapply partition_right_branchless_wp with (s := sl); eauto.
    - eapply partition_right_wp with (s := sl); eauto. }
  intros [p ap] m2 HPR. cbv beta iota in *.
  destruct HPR as (HP2 & Hp & Ep & R1 & R2).
  assert (full b e m2) as Hf2 by (eapply pm_full; eauto).
  assert (range_all (fun x => lt z x = false) b p m2) as RA1.
  { intros k a Hk Ha. destruct (R1 k Hk) as (x & Ex & Hx). apply lt_le; auto. congruence. }
  assert (range_all (fun x => lt x z = false) (S p) e m2) as RA2.
  { intros k a Hk Ha. destruct (R2 k) as (x & Ex & Hx). lia. congruence. }
  assert (sentinel lm b e m2) as HS2.
  { destruct HS1 as [HS1|(H0 & y & Hy & HR)]; [now left|right]. split; auto. exists y. split.
    - rewrite (pm_out _ _ _ _ _ HP2); auto. lia.
    - eapply pm_range_all; eauto. apply Hf1. }
  pose proof (pm_trans _ _ _ _ _ HP1 HP2) as HP12.
  clear R1 R2 SL SG Ez HS HS1 Hf Hf1 HP1 HP2 m1.
  assert (forall bad' m3, full b e m3 -> nth_error m3 p = Some (Val z) -> range_all (fun x => lt z x = false) b p m3 ->
    range_all (fun x => lt x z = false) (S p) e m3 -> sentinel lm b e m3 ->
    wp (pdqsort_loop comp proj true br fuel b p bad' lm ;; pdqsort_loop comp proj true br fuel (p + 1) e bad' false)
      (fun _ m' => pm b e m3 m' /\ sorted_range lt b e m') m3) as REST.
  { clear - IH HW Hp Hfu. intros bad' m3 Hf3 Ep3 RA1 RA2 HS3.
    apply wp_bind. eapply wp_mono.
    { apply IH; try lia. { eapply full_sub; eauto; lia. }
      destruct HS3 as [HS3|(H0 & y & Hy & HR)]; [now left|right]. split; auto. exists y. split; auto.
      intros k a Hk Ha. eapply (HR k); eauto. lia. }
    intros u m4 (HP4 & HS4). cbv beta. clear u.
    assert (nth_error m4 p = Some (Val z)) as Ep4 by (rewrite (pm_out _ _ _ _ _ HP4); auto; lia).
    assert (range_all (fun x => lt x z = false) (S p) e m4) as RA24 by (eapply pm_range_out; eauto; lia).
    assert (range_all (fun x => lt z x = false) b p m4) as RA14.
    { eapply pm_range_all; eauto. destruct Hf3. lia. }
    assert (full b e m4) as Hf4. { eapply pm_full; eauto. eapply pm_widen; eauto; lia. }
    replace (p + 1) with (S p) by lia.
    eapply wp_mono.
    { apply IH; try lia. { eapply full_sub; eauto; lia. }
      right. split; [lia|]. exists z. replace (S p - 1) with p by lia. auto. }
    intros u m5 (HP5 & HS5). clear u. split.
    - eapply pm_trans; eapply pm_widen; eauto; lia.
    - apply (sorted_pivot HW b p e z); auto.
      + eapply pm_sorted_out; eauto.
      + rewrite (pm_out _ _ _ _ _ HP5); auto; lia.
      + eapply pm_range_out; eauto; lia.
      + eapply pm_range_all; eauto. apply Hf4. }
  assert (forall bad', wp (pdqsort_loop comp proj true br fuel b p bad' lm ;; pdqsort_loop comp proj true br fuel (p + 1) e bad' false)
      (fun _ m' => pm b e m m' /\ sorted_range lt b e m') m2) as REST2.
  { intros bad'. eapply wp_mono; [apply REST; auto|]. intros u m' [? ?]. split; auto. eapply pm_trans; eauto. }
  match goal with |- wp (if ?c then _ else _) _ _ => destruct c end.
  - match goal with |- wp (if ?c then _ else _) _ _ => destruct c end.
    + eapply wp_mono; [apply (heap_sorter_wp comp proj b e); auto|]. intros u m' [? ?]. split; auto. eapply pm_trans; eauto.
    + apply wp_bind. eapply wp_mono.
      { apply break_patterns_wp; try lia; eapply full_sub; eauto; lia. }
      intros u m3 (m2' & HPa & HPb). cbv beta. clear u.
      assert (pm b e m2 m3) as HP23.
      { eapply pm_trans; eapply pm_widen; eauto; lia. }
      eapply wp_mono; [apply REST|].
      * eapply pm_full; eauto.
      * rewrite (pm_out _ _ _ _ _ HPb), (pm_out _ _ _ _ _ HPa) by lia. auto.
      * apply (pm_range_out _ (S p) e b p m2' m3); [exact HPb| |lia]. apply (pm_range_all _ b p m2 m2'); auto. destruct Hf2. lia.
      * apply (pm_range_all _ (S p) e m2' m3); auto.
        -- rewrite (pm_length _ _ _ _ HPa). apply Hf2.
        -- apply (pm_range_out _ b p (S p) e m2 m2'); auto.
      * destruct HS2 as [HS2|(H0 & y & Hy & HR)]; [now left|right]. split; auto. exists y. split.
        -- rewrite (pm_out _ _ _ _ _ HP23); auto. lia.
        -- eapply pm_range_all; eauto. apply Hf2.
      * intros u m' [? ?]. split; auto. eapply pm_trans; eauto. eapply pm_trans; eauto.
  - apply wp_bind.
    apply wp_mono with (Q := fun r m3 => exists m2', pm b p m2 m2' /\ pm (S p) e m2' m3 /\
      (r = true -> sorted_range lt b p m2' /\ sorted_range lt (S p) e m3)).
    { destruct ap; [|apply wp_ret; exists m2; split; [apply pm_refl|split; [apply pm_refl|discriminate]]].
      apply wp_bind. eapply wp_mono; [apply partial_index_wp; auto; [lia|eapply full_sub; eauto; lia]|].
      intros r m2' (HPa & HSa). cbv beta.
      destruct r; [|apply wp_ret; exists m2'; split; [auto|split; [apply pm_refl|discriminate]]].
      replace (p + 1) with (S p) by lia.
      eapply wp_mono; [apply partial_index_wp; auto; [lia|]|].
      { apply (pm_full_out b p (S p) e m2 m2'); auto. eapply full_sub; eauto; lia. }
      intros r m3 (HPb & HSb). exists m2'. auto. }
    intros r m3 (m2' & HPa & HPb & HSr). cbv beta.
    assert (pm b e m2 m3) as HP23.
    { eapply pm_trans; eapply pm_widen; eauto; lia. }
    assert (nth_error m3 p = Some (Val z)) as Ep3.
    { rewrite (pm_out _ _ _ _ _ HPb), (pm_out _ _ _ _ _ HPa) by lia. auto. }
    assert (range_all (fun x => lt z x = false) b p m3) as RA13.
    { apply (pm_range_out _ (S p) e b p m2' m3); [exact HPb| |lia]. apply (pm_range_all _ b p m2 m2'); auto. destruct Hf2. lia. }
    assert (range_all (fun x => lt x z = false) (S p) e m3) as RA23.
    { apply (pm_range_all _ (S p) e m2' m3); auto.
      - rewrite (pm_length _ _ _ _ HPa). apply Hf2.
      - apply (pm_range_out _ b p (S p) e m2 m2'); auto. }
    destruct r.
    + apply wp_ret. split; [eapply pm_trans; eauto|].
      destruct (HSr eq_refl) as [S1 S2].
      apply (sorted_pivot HW b p e z); auto. apply (pm_sorted_out (S p) e b p m2' m3); auto.
    + eapply wp_mono; [apply REST; auto|].
      * eapply pm_full; eauto.
      * destruct HS2 as [HS2|(H0 & y & Hy & HR)]; [now left|right]. split; auto. exists y. split.
        -- rewrite (pm_out _ _ _ _ _ HP23); auto. lia.
        -- eapply pm_range_all; eauto. apply Hf2.
      * intros u m' [? ?]. split; auto. eapply pm_trans; eauto. eapply pm_trans; eauto.
Qed.

Lemma pdq_sorts : strict_weak_order comp -> forall branchless, sorts lt (pdq_sorter comp proj true branchless).
Proof.
  intros HC br. apply sorts_intro. intros f l m Hfl Hf. unfold pdq_sorter, pdqsort.
  destruct (Nat.ltb_spec (l - f) 2).
  - apply wp_ret. split; [apply pm_refl|]. apply sorted_range_empty. lia.
  - apply pdqsort_loop_wp; auto. now left.
Qed.
End Pdq.
