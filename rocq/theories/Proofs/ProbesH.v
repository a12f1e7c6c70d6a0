(** Proofs about the probes: exc and block. *)
From Coq Require Import List Arith Lia Permutation Bool.
From Verif Require Import Spec.Order Spec.Probes Lang.Mem Spec.Sorts Proofs.Wp Proofs.OrderLib Proofs.Search Model.Search
  Model.Heap Model.Rotate Model.Indirect Proofs.Indirect Model.Probes Proofs.ProbesA Proofs.ProbesC Proofs.ProbesE Proofs.ProbesF.
Import ListNotations.

Section Exchanges.
Context {A : Type} (lt : A -> A -> bool).
Hypothesis HW : strict_weak_order lt.

Definition swp (i j k : nat) : nat := if k =? i then j else if k =? j then i else k.
Lemma swapped_nth : forall (xs ys : list A) i j, swapped xs ys i j -> forall k, nth_error ys k = nth_error xs (swp i j k).
Proof.
  intros xs ys i j (H1 & H2 & H3 & H4 & H5 & H6) k. unfold swp.
  destruct (Nat.eqb_spec k i) as [->|N1]; auto. destruct (Nat.eqb_spec k j) as [->|N2]; auto.
Qed.
Lemma swapped_perm : forall (xs ys : list A) i j, swapped xs ys i j -> Permutation xs ys.
Proof.
  intros xs ys i j H. apply Permutation_nth_error. split; [symmetry; apply H|].
  exists (swp i j). split; [|apply (swapped_nth _ _ _ _ H)].
  intros a b. unfold swp. destruct (Nat.eqb_spec a i), (Nat.eqb_spec a j), (Nat.eqb_spec b i), (Nat.eqb_spec b j); lia.
Qed.
Lemma NoDup_remove_nat : forall (l : list nat) x, NoDup l -> NoDup (remove Nat.eq_dec x l).
Proof.
  induction 1 as [|a l H1 H2 IH]; simpl; [constructor|]. destruct (Nat.eq_dec x a); auto. constructor; auto.
  intros H. apply in_remove in H as [H _]. auto.
Qed.
Lemma length_remove_nat : forall (l : list nat) x, NoDup l -> length l <= S (length (remove Nat.eq_dec x l)).
Proof.
  induction 1 as [|a l H1 H2 IH]; simpl; [lia|]. destruct (Nat.eq_dec x a) as [->|N]; simpl; [|lia].
  rewrite notin_remove; auto.
Qed.
Lemma exchanges_perm : forall k (xs ys : list A), exchanges k xs ys -> Permutation xs ys.
Proof. induction 1; auto. etransitivity; [eapply swapped_perm; eauto|]; auto. Qed.
Lemma exchanges_snoc : forall k (xs ys zs : list A) i j, exchanges k xs ys -> swapped ys zs i j -> exchanges (S k) xs zs.
Proof.
  intros k xs ys zs i j H. revert zs. induction H; intros.
  - eapply exchanges_S; eauto. constructor.
  - eapply exchanges_S; eauto.
Qed.

(** After [k] exchanges, at least [n - k] labels can be constant along the cycles. *)
Lemma exchanges_labels : forall k (xs zs : list A), exchanges k xs zs ->
  exists tau lab D, (forall p, p < length xs -> tau p < length xs /\ nth_error zs p = nth_error xs (tau p) /\ lab (tau p) = lab p :> nat) /\
    NoDup D /\ (forall d, In d D -> exists p, p < length xs /\ lab p = d) /\ length xs <= length D + k.
Proof.
  induction 1 as [xs|k i j xs ys zs Hs He (tau & lab & D & H1 & H2 & H3 & H4)].
  - exists (fun p => p), (fun p => p), (seq 0 (length xs)). cj; auto.
    + apply seq_NoDup.
    + intros d Hd. apply in_seq in Hd. exists d. split; auto; lia.
    + rewrite seq_length. lia.
  - pose proof Hs as (Hi & Hj & HL & _). rewrite HL in *. pose proof (swapped_nth _ _ _ _ Hs) as Hn.
    exists (fun p => swp i j (tau p)), (fun p => if lab p =? lab j then lab i else lab p), (remove Nat.eq_dec (lab j) D).
    cj.
    + intros p Hp. destruct (H1 p Hp) as (G1 & G2 & G3). cj.
      * unfold swp. destruct (tau p =? i), (tau p =? j); auto.
      * rewrite G2. apply Hn.
      * rewrite <- G3. unfold swp. destruct (Nat.eqb_spec (tau p) i) as [->|N1]; [|destruct (Nat.eqb_spec (tau p) j) as [->|N2]; auto].
        -- rewrite Nat.eqb_refl. destruct (lab i =? lab j); auto.
        -- rewrite Nat.eqb_refl. destruct (Nat.eqb_spec (lab i) (lab j)); auto.
    + apply NoDup_remove_nat; auto.
    + intros d Hd. apply in_remove in Hd as [Hd Hne]. destruct (H3 d Hd) as (p & Hp & <-). exists p. split; auto.
      destruct (Nat.eqb_spec (lab p) (lab j)); congruence.
    + pose proof (length_remove_nat D (lab j) H2). lia.
Qed.
End Exchanges.

(** * Walking the cycles of a permutation *)
Definition vis (sorted : list bool) (k : nat) : Prop := nth_error sorted k = Some true.
Definition visited (sorted : list bool) : nat := cnt (fun b => b) sorted.

Lemma visited_upd : forall s k, nth_error s k = Some false -> visited (upd k true s) = S (visited s).
Proof.
  unfold visited, cnt. induction s as [|b s IH]; intros [|k] H; simpl in H; try discriminate.
  - inversion H; subst. simpl. auto.
  - simpl. specialize (IH k H). destruct b; simpl; auto.
Qed.
Lemma visited_all : forall s, (forall k, k < length s -> vis s k) -> visited s = length s.
Proof.
  unfold visited, cnt, vis. induction s as [|b s IH]; intros H; simpl; auto.
  pose proof (H 0 ltac:(simpl; lia)) as H0. simpl in H0. inversion H0; subst. simpl. f_equal. apply IH.
  intros k Hk. apply (H (S k)). simpl. lia.
Qed.
Lemma visited_none : forall k, visited (repeat false k) = 0.
Proof. induction k; auto. Qed.
Lemma vis_upd : forall s k j, k < length s -> (vis (upd k true s) j <-> j = k \/ vis s j).
Proof.
  intros s k j Hk. unfold vis. destruct (Nat.eq_dec j k) as [->|N].
  - rewrite nth_upd_eq by auto. tauto.
  - rewrite nth_upd_ne by auto. split; [tauto|]. intros [E|E]; [lia|auto].
Qed.
Lemma not_vis : forall s k, k < length s -> nth_error s k <> Some true -> nth_error s k = Some false.
Proof. intros s k Hk H. destruct (nth_some _ s k Hk) as ([|] & E); congruence. Qed.
Lemma vis_lt : forall s k, vis s k -> k < length s.
Proof. unfold vis. intros. eapply nth_lt; eauto. Qed.

Section Cycles.
Context {A : Type} (lt : A -> A -> bool) (xs ys : list A) (sg : nat -> nat).
Let n := length xs.
Hypothesis HW : strict_weak_order lt.
Hypothesis Hys : length ys = n.
Hypothesis Hsg : forall k, k < n -> sg k < n /\ nth_error ys k = nth_error xs (sg k).
Hypothesis Hinj : forall j k, j < n -> k < n -> sg j = sg k -> j = k.
Hypothesis Hsur : forall k, k < n -> exists j, j < n /\ sg j = k.

Definition const_lab (lab : nat -> nat) : Prop := forall k, k < n -> lab (sg k) = lab k.

(** Between two cycles. *)
Definition between (s : list bool) (cycles : nat) : Prop :=
  length s = n /\ (forall k, k < n -> (vis s k <-> vis s (sg k))) /\ cycles <= visited s /\
  (distinct lt xs -> exists zs e R, exchanges e xs zs /\ (forall k, vis s k -> nth_error zs k = nth_error ys k) /\
     (forall k, k < n -> ~ vis s k -> nth_error zs k = nth_error xs k) /\ e + cycles = visited s /\
     length R = cycles /\ forall lab k, const_lab lab -> vis s k -> exists r, In r R /\ lab k = lab r) /\
  (sorted lt xs -> cycles = visited s).

(** Inside a cycle; [cur] is the last visited position. *)
Definition inside_cycle (start : nat) (s : list bool) (cur cycles : nat) : Prop :=
  length s = n /\ vis s start /\ vis s cur /\
  (forall v, vis s v -> v <> start -> exists k, vis s k /\ k <> cur /\ sg k = v) /\
  (forall k, vis s k -> k <> cur -> vis s (sg k)) /\ S cycles <= visited s /\
  (distinct lt xs -> exists zs e R, exchanges e xs zs /\ (forall k, vis s k -> k <> cur -> nth_error zs k = nth_error ys k) /\
     nth_error zs cur = nth_error xs start /\
     (forall k, k < n -> ~ vis s k -> nth_error zs k = nth_error xs k) /\ e + S cycles = visited s /\
     length R = S cycles /\ forall lab k, const_lab lab -> vis s k -> exists r, In r R /\ lab k = lab r) /\
  (sorted lt xs -> S cycles = visited s).

Lemma between_start : between (repeat false n) 0.
Proof using.
  assert (forall k, ~ vis (repeat false n) k) as K.
  { intros k H. unfold vis in H. apply nth_error_In in H. apply repeat_spec in H. discriminate. }
  unfold between. rewrite visited_none. cj; auto.
  - apply repeat_length.
  - intros k _. split; intros H; exfalso; eapply K; eauto.
  - intros _. exists xs, 0, []. cj; auto; [constructor| |]; intros; exfalso; eapply K; eauto.
Qed.

Lemma enter : forall s cycles start, between s cycles -> start < n -> ~ vis s start ->
  inside_cycle start (upd start true s) start cycles.
Proof.
  intros s cycles start (HL & Hc & Hle & HD & HS) Hst Hnv.
  pose proof (not_vis s start ltac:(lia) Hnv) as Hf. pose proof (visited_upd s start Hf) as Hv.
  assert (forall j, vis (upd start true s) j <-> j = start \/ vis s j) as Hu by (intros; apply vis_upd; lia).
  unfold inside_cycle. rewrite Hv. cj.
  - now rewrite upd_length.
  - apply Hu; auto.
  - apply Hu; auto.
  - intros v Hvv Hne. apply Hu in Hvv as [->|Hvv]; [lia|]. pose proof (vis_lt s v Hvv) as Hvl. rewrite HL in Hvl.
    destruct (Hsur v Hvl) as (k & Hk & <-). exists k. apply (Hc k) in Hvv; auto. cj; auto; [now apply Hu; right|].
    intros ->. auto.
  - intros k Hk Hne. apply Hu in Hk as [->|Hk]; [lia|]. apply Hu. right. apply (Hc k); auto. apply vis_lt in Hk. lia.
  - lia.
  - intros Hd. destruct (HD Hd) as (zs & e & R & H1 & H2 & H3 & H4 & H5 & H6).
    exists zs, e, (start :: R). cj; auto; try (simpl; lia).
    + intros k Hk Hne. apply Hu in Hk as [->|Hk]; [lia|]. auto.
    + intros k Hk Hne. apply H3; auto. intros G. apply Hne. apply Hu. auto.
    + intros lab k Hlab Hk. apply Hu in Hk as [->|Hk]; [exists start; split; auto; left; auto|].
      destruct (H6 lab k Hlab Hk) as (r & Hr & E). exists r; split; auto; right; auto.
  - intros Hs. rewrite HS; auto.
Qed.

Lemma leave : forall start s cur cycles, inside_cycle start s cur cycles -> sg cur = start -> between s (S cycles).
Proof.
  intros start s cur cycles (HL & Hvs & Hvc & Hb & Hf & Hle & HD & HS) E.
  pose proof (vis_lt s cur Hvc) as Hcl. rewrite HL in Hcl. unfold between. cj; auto.
  - intros k Hk. split; intros H.
    + destruct (Nat.eq_dec k cur) as [->|N]; [rewrite E; auto|auto].
    + destruct (Nat.eq_dec (sg k) start) as [E'|N].
      * replace k with cur; auto. apply Hinj; auto. congruence.
      * destruct (Hb (sg k) H N) as (k' & G1 & G2 & G3). replace k with k'; auto. apply Hinj; auto. apply vis_lt in G1. lia.
  - intros Hd. destruct (HD Hd) as (zs & e & R & H1 & H2 & H3 & H4 & H5 & H6 & H7).
    exists zs, e, R. cj; auto. intros k Hk. destruct (Nat.eq_dec k cur) as [->|N]; [|auto].
    rewrite H3, <- E. symmetry. apply Hsg. auto.
Qed.

(** The next position of a cycle has not been visited. *)
Lemma fresh : forall start s cur cycles, inside_cycle start s cur cycles -> sg cur <> start -> ~ vis s (sg cur).
Proof.
  intros start s cur cycles (HL & Hvs & Hvc & Hb & Hf & _) E H.
  destruct (Hb _ H E) as (k & G1 & G2 & G3). apply G2. apply vis_lt in G1, Hvc. apply Hinj; auto; lia.
Qed.

Lemma follow : forall start s cur cycles (same : bool), inside_cycle start s cur cycles -> sg cur <> start ->
  (distinct lt xs -> same = false) -> (sorted lt xs -> same = true) ->
  inside_cycle start (upd (sg cur) true s) (sg cur) (if same then S cycles else cycles).
Proof.
  intros start s cur cycles same HI E Hsame1 Hsame2. pose proof (fresh _ _ _ _ HI E) as Hfr.
  destruct HI as (HL & Hvs & Hvc & Hb & Hf & Hle & HD & HS).
  assert (cur < n) as Hcl by (rewrite <- HL; now apply vis_lt). destruct (Hsg cur Hcl) as (Hnl & Hny).
  pose proof (not_vis s (sg cur) ltac:(lia) Hfr) as Hff. pose proof (visited_upd s (sg cur) Hff) as Hv.
  assert (forall j, vis (upd (sg cur) true s) j <-> j = sg cur \/ vis s j) as Hu by (intros; apply vis_upd; lia).
  assert (cur <> sg cur) as Hcn by (intros G; apply Hfr; rewrite <- G; auto).
  unfold inside_cycle. rewrite Hv. cj.
  - now rewrite upd_length.
  - apply Hu; auto.
  - apply Hu; auto.
  - intros v Hvv Hne. apply Hu in Hvv as [->|Hvv].
    + exists cur. cj; auto. apply Hu; auto.
    + destruct (Hb v Hvv Hne) as (k & G1 & G2 & G3). exists k. cj; auto; [apply Hu; auto|]. intros ->. auto.
  - intros k Hk Hne. apply Hu in Hk as [->|Hk]; [lia|]. apply Hu. destruct (Nat.eq_dec k cur) as [->|N]; auto.
  - destruct same; lia.
  - intros Hd. rewrite (Hsame1 Hd). destruct (HD Hd) as (zs & e & R & H1 & H2 & H3 & H4 & H5 & H6 & H7).
    assert (length zs = n) as Hzl by (symmetry; apply Permutation_length; eapply exchanges_perm; eauto).
    destruct (nth_some _ zs cur) as (a & Ha); [lia|]. destruct (nth_some _ zs (sg cur)) as (b & Hb'); [lia|].
    exists (upd cur b (upd (sg cur) a zs)), (S e), R.
    assert (swapped zs (upd cur b (upd (sg cur) a zs)) cur (sg cur)) as Hsw.
    { unfold swapped. rewrite !upd_length. cj; auto; try lia.
      - rewrite nth_upd_eq by (rewrite upd_length; lia). auto.
      - rewrite nth_upd_ne by auto. rewrite nth_upd_eq by lia. auto.
      - intros k N1 N2. now rewrite !nth_upd_ne by auto. }
    pose proof Hsw as (_ & _ & _ & S1 & S2 & S3). cj; auto; try lia.
    + eapply exchanges_snoc; eauto.
    + intros k Hk Hne. apply Hu in Hk as [->|Hk]; [lia|]. destruct (Nat.eq_dec k cur) as [->|N].
      * rewrite S1, H4; auto.
      * rewrite S3; auto.
    + rewrite S2. auto.
    + intros k Hk Hnv. assert (~ vis s k /\ k <> sg cur) as [G1 G2] by (split; intros G; apply Hnv, Hu; auto).
      rewrite S3; auto. intros ->. auto.
    + intros lab k Hlab Hk. apply Hu in Hk as [->|Hk]; auto. rewrite Hlab by auto. auto.
  - intros Hs. rewrite (Hsame2 Hs), (HS Hs). auto.
Qed.

(** When everything has been visited. *)
Lemma between_end : forall s cycles, between s cycles -> (forall k, k < n -> vis s k) -> Permutation xs ys -> sorted lt ys ->
  cycles <= n /\ (distinct lt xs -> min_exchanges lt xs (n - cycles)) /\ (sorted lt xs -> cycles = n).
Proof.
  intros s cycles (HL & Hc & Hle & HD & HS) Hall HP Hso.
  assert (visited s = n) as Hv by (rewrite <- HL; apply visited_all; intros; apply Hall; lia).
  rewrite Hv in *. cj; auto. intros Hd. destruct (HD Hd) as (zs & e & R & H1 & H2 & H3 & H4 & H5 & H6). split.
  - exists zs. split; [replace (n - cycles) with e by lia; auto|].
    replace zs with ys; auto. assert (length zs = n) as Hzl by (symmetry; apply Permutation_length; eapply exchanges_perm; eauto).
    apply nth_ext. intros k. destruct (Nat.lt_ge_cases k n) as [L|L].
    + symmetry. apply H2; auto.
    + rewrite !(proj2 (nth_error_None _ _)) by lia. auto.
  - intros k' zs' Hex Hso'. pose proof (exchanges_perm _ _ _ Hex) as HP'.
    destruct (exchanges_labels _ _ _ Hex) as (tau & lab & D & G1 & G2 & G3 & G4). fold n in G1, G3, G4.
    assert (forall p, p < n -> tau p = sg p) as Hts.
    { intros p Hp. destruct (G1 p Hp) as (T1 & T2 & T3). destruct (Hsg p Hp) as (T4 & T5).
      destruct (nth_some _ xs (tau p)) as (a & Ha); [fold n; lia|]. destruct (nth_some _ xs (sg p)) as (b & Hb); [fold n; lia|].
      rewrite Ha in T2. rewrite Hb in T5.
      pose proof (sortings_equiv lt HW zs' ys (Permutation_trans (Permutation_sym HP') HP) Hso' Hso p a b T2 T5) as He.
      destruct (Nat.lt_trichotomy (tau p) (sg p)) as [L|[L|L]]; auto.
      - now rewrite (Hd _ _ _ _ L Ha Hb) in He.
      - rewrite (eqv_sym lt) in He. now rewrite (Hd _ _ _ _ L Hb Ha) in He. }
    assert (const_lab lab) as Hlab by (intros p Hp; rewrite <- Hts by auto; now apply G1).
    assert (length D <= length (map lab R)) as HDR.
    { apply NoDup_incl_length; auto. intros d Hin. destruct (G3 d Hin) as (p & Hp & <-).
      destruct (H6 lab p Hlab (Hall p Hp)) as (r & Hr & ->). now apply in_map. }
    rewrite map_length in HDR. lia.
Qed.
End Cycles.

(** The permutation given by sorted iterators. *)
Lemma its_sigma : forall (A : Type) f (xs : list A) its, Permutation (tag f xs) its -> exists sg,
  (forall k, k < length xs -> sg k < length xs /\ exists v, nth_error its k = Some (f + sg k, v) /\ nth_error xs (sg k) = Some v) /\
  (forall j k, j < length xs -> k < length xs -> sg j = sg k -> j = k) /\
  (forall k, k < length xs -> exists j, j < length xs /\ sg j = k).
Proof.
  intros A f xs its HP. assert (length its = length xs) as HL.
  { rewrite <- (Permutation_length HP). unfold tag. rewrite combine_length, seq_length. lia. }
  exists (fun k => match nth_error its k with Some it => fst it - f | None => 0 end).
  assert (forall k, k < length xs -> exists p v, nth_error its k = Some (f + p, v) /\ p < length xs /\ nth_error xs p = Some v) as K.
  { intros k Hk. destruct (nth_some _ its k) as ([q v] & Hq); [lia|]. 
    assert (In (q, v) (tag f xs)) as Hin by (eapply Permutation_in; [symmetry; eauto|]; eapply nth_error_In; eauto).
    apply tag_In in Hin as (H1 & H2). exists (q - f), v. replace (f + (q - f)) with q by lia. cj; auto. eapply nth_lt; eauto. }
  assert (Permutation (seq f (length xs)) (map fst its)) as HPf by (rewrite <- (tag_fst xs f); now apply Permutation_map).
  assert (NoDup (map fst its)) as HN by (eapply Permutation_NoDup; eauto; apply seq_NoDup).
  cj.
  - intros k Hk. destruct (K k Hk) as (p & v & H1 & H2 & H3). rewrite H1. cbn [fst]. replace (f + p - f) with p by lia. split; auto.
    exists v. auto.
  - intros j k Hj Hk E. destruct (K j Hj) as (p & v & H1 & H2 & H3). destruct (K k Hk) as (q & w & G1 & G2 & G3).
    rewrite H1, G1 in E. cbn [fst] in E. assert (p = q) by lia. subst q.
    apply (proj1 (NoDup_nth_error (map fst its)) HN); [rewrite map_length; lia|].
    rewrite !nth_error_map, H1, G1. reflexivity.
  - intros k Hk. assert (In (f + k) (map fst its)) as Hin by (eapply Permutation_in; eauto; apply in_seq; lia).
    apply In_nth_error in Hin as (j & Hj). exists j. assert (j < length xs) as Hjl.
    { apply nth_lt in Hj. rewrite map_length in Hj. lia. }
    split; auto. rewrite nth_error_map in Hj. destruct (K j Hjl) as (p & v & H1 & H2 & H3). rewrite H1 in *. simpl in Hj.
    inversion Hj. cbn [fst]. lia.
Qed.

Section ExcProbe.
Context {A T : Type} (comp : T -> T -> bool) (proj : A -> T).
Hypothesis HC : strict_weak_order comp.
Notation lt := (by_proj comp proj).
Let HW : strict_weak_order lt := swo_by_proj _ _ comp proj HC.
Variable inner : (T -> T -> bool) -> (nat * A -> T) -> range_prog (nat * A).
Hypothesis Hinner : forall c p, strict_weak_order c -> sorts (by_proj c p) (inner c p).

Lemma exc_next_wp : forall s f start n (Q : nat -> mem A -> Prop) m, length s = n -> start < n ->
  (forall k, k <= start -> vis s k) ->
  (forall st, start < st -> st <= n -> (forall k, k < st -> vis s k) -> (st = n \/ ~ vis s st) -> Q (f + st) m) ->
  wp (exc_next s f (f + start) (f + n)) Q m.
Proof.
  intros s f start n Q m HL Hst Hv HQ. unfold exc_next.
  apply wp_loop' with (mu := fun st => f + n - st)
    (I := fun st m' => exists c, st = f + c /\ start <= c /\ c < n /\ (forall k, k <= c -> vis s k) /\ m' = m).
  - exists start. cj; auto.
  - lia.
  - intros st m' (c & -> & H1 & H2 & H3 & ->). destruct (Nat.eqb_spec (S (f + c)) (f + n)) as [E|E].
    + apply wp_ret. replace (S (f + c)) with (f + S c) by lia. apply HQ; try lia. intros; apply H3; lia.
    + destruct (nth_some _ s (S c)) as (b & Hb); [lia|].
      apply wp_bind. eapply wp_rd; [replace (S (f + c) - f) with (S c) by lia; exact Hb|]. destruct b; apply wp_ret.
      * split; [|lia]. exists (S c). cj; auto; try lia. intros k Hk. destruct (Nat.eq_dec k (S c)) as [->|N]; auto. apply H3. lia.
      * replace (S (f + c)) with (f + S c) by lia. apply HQ; try lia.
        -- intros; apply H3; lia.
        -- right. unfold vis. rewrite Hb. discriminate.
Qed.

Lemma probe_exc_wp : forall pre xs post (Q : nat -> mem A -> Prop),
  (forall r, r <= exc_max_for_size (length xs) -> (distinct lt xs -> min_exchanges lt xs r) -> (sorted lt xs -> r = 0) ->
     Q r (pre ++ map Val xs ++ post)) ->
  wp (probe_exc comp proj inner (length pre) (length pre + length xs)) Q (pre ++ map Val xs ++ post).
Proof.
  intros pre xs post Q HQ. unfold probe_exc. replace (length pre + length xs - length pre) with (length xs) by lia.
  destruct (Nat.ltb_spec (length xs) 2) as [Hn|Hn].
  { apply wp_ret. apply HQ; auto; [lia|]. intros _. split; [|lia].
    exists xs. split; [constructor|]. destruct xs as [|a [|b xs]]; [apply sorted_nil|apply sorted_one|simpl in Hn; lia]. }
  apply wp_bind. apply sorted_its_wp; auto. intros its HPt HS HP. set (ys := map snd its) in *.
  destruct (its_sigma _ _ _ _ HPt) as (sg & Hsg & Hinj & Hsur).
  set (n := length xs) in *.
  assert (length its = n) as HLi by (rewrite <- (map_length snd its); symmetry; apply Permutation_length; auto).
  assert (length ys = n) as HLy by (unfold ys; now rewrite map_length).
  assert (forall k, k < n -> sg k < n /\ nth_error ys k = nth_error xs (sg k)) as Hsg'.
  { intros k Hk. destruct (Hsg k Hk) as (H1 & v & H2 & H3). split; auto. unfold ys. rewrite nth_error_map, H2, H3. reflexivity. }
  apply wp_bind.
  apply wp_loop' with (mu := fun '(start, s, cycles) => length pre + n - start)
    (I := fun '(start, s, cycles) m => exists st, start = length pre + st /\ st <= n /\ between lt xs ys sg s cycles /\
       (forall k, k < st -> vis s k) /\ (st = n \/ ~ vis s st) /\ (st = 0 \/ 1 <= cycles) /\ m = pre ++ map Val xs ++ post).
  - exists 0. cj; auto; try lia.
    + apply between_start.
    + right. unfold vis. intros H. apply nth_error_In, repeat_spec in H. discriminate.
  - lia.
  - intros [[start s] cycles] m (st & -> & Hst & HB & Hbef & Hat & Hcy & ->).
    destruct (Nat.eqb_spec (length pre + st) (length pre + n)) as [E|E].
    { apply wp_ret. apply wp_ret. assert (st = n) by lia. subst st.
      destruct (between_end lt xs ys sg HW HLy Hsg' Hinj Hsur s cycles HB Hbef HP HS) as (H1 & H2 & H3).
      fold n in H1, H2, H3. apply HQ; auto.
      - unfold exc_max_for_size. destruct (Nat.eqb_spec n 0); lia.
      - intros Hs. rewrite (H3 Hs). lia. }
    assert (st < n) as Hlt by lia. destruct Hat as [Hat|Hnv]; [lia|].
    destruct (nth_some _ xs st) as (x & Hx); [fold n; lia|].
    apply wp_bind. eapply wp_get_list; eauto.
    destruct (Hsg st Hlt) as (Hs1 & v & Hs2 & Hs3).
    apply wp_bind. eapply wp_rd; [replace (length pre + st - length pre) with st by lia; exact Hs2|].
    assert (length s = n) as HLs by apply HB.
    apply wp_bind. apply wp_wr; [lia|]. replace (length pre + st - length pre) with st by lia.
    pose proof (enter lt xs ys sg HLy Hsg' Hinj Hsur s cycles st HB Hlt Hnv) as HI.
    assert (forall j, vis (upd st true s) j <-> j = st \/ vis s j) as Hu by (intros; apply vis_upd; lia).
    apply wp_bind.
    assert (forall s' cycles', between lt xs ys sg s' (S cycles') -> (forall j, vis (upd st true s) j -> vis s' j) ->
      wp (let* start := exc_next s' (length pre) (length pre + st) (length pre + n) in ret (inl (start, s', S cycles')))
        (fun (s0 : (nat * list bool * nat) + nat) m' => match s0 with
           | inl s'0 => (let '(start, s, cycles) := s'0 in fun m => exists st, start = length pre + st /\ st <= n /\ between lt xs ys sg s cycles /\
              (forall k, k < st -> vis s k) /\ (st = n \/ ~ vis s st) /\ (st = 0 \/ 1 <= cycles) /\ m = pre ++ map Val xs ++ post) m' /\
             (let '(start, s, cycles) := s'0 in length pre + n - start) < length pre + n - (length pre + st)
           | inr b => False end) (pre ++ map Val xs ++ post)) as Hfin.
    { intros s' cycles' HB' Hmon. apply wp_bind. apply exc_next_wp; auto.
      - apply HB'.
      - intros k Hk. apply Hmon, Hu. destruct (Nat.eq_dec k st); auto. right. apply Hbef. lia.
      - intros st' G1 G2 G3 G4. apply wp_ret. split; [|lia]. exists st'. cj; auto. right. lia. }
    cbn [fst]. destruct (Nat.eqb_spec (length pre + sg st) (length pre + st)) as [E1|E1].
    { apply wp_ret. eapply wp_mono; [apply Hfin|].
      - eapply (leave lt xs ys sg HLy Hsg' Hinj Hsur st _ st); eauto. lia.
      - auto.
      - intros [[[? ?] ?]|] m' H; [exact H|destruct H]. }
    unfold exc_cycle. set (s1 := upd st true s) in *.
    apply wp_loop' with (mu := fun '(current, next, s, cycles) => n - visited s)
      (I := fun '(current, next, s', cycles') m => exists cur w v, current = (length pre + cur, w) /\ next = (length pre + sg cur, v) /\
         nth_error xs cur = Some w /\ nth_error xs (sg cur) = Some v /\ cur < n /\
         inside_cycle lt xs ys sg st s' cur cycles' /\ (forall j, vis s1 j -> vis s' j) /\ m = pre ++ map Val xs ++ post).
    + exists st, x, v. cj; auto.
    + lia.
    + intros [[[current next] s'] cycles'] m (cur & w & v' & -> & -> & Hw & Hv' & Hcl & HIc & Hmon & ->). cbn [fst snd].
      destruct (Nat.eqb_spec (length pre + sg cur) (length pre + st)) as [E2|E2].
      * apply wp_ret. eapply wp_mono; [apply Hfin|].
        -- eapply (leave lt xs ys sg HLy Hsg' Hinj Hsur st _ cur); eauto. lia.
        -- exact Hmon.
        -- intros [[[? ?] ?]|] m' H; [exact H|destruct H].
      * assert (sg cur <> st) as Hne by lia.
        pose proof (fresh lt xs ys sg HLy Hsg' Hinj Hsur st s' cur cycles' HIc Hne) as Hfr.
        destruct (Hsg (sg cur)) as (Hs1' & v2 & Hs2' & Hs3'); [apply Hsg; auto|].
        apply wp_bind. eapply wp_rd; [replace (length pre + sg cur - length pre) with (sg cur) by lia; exact Hs2'|].
        assert (length s' = n) as HLs' by apply HIc. assert (sg cur < n) as Hsl by (apply Hsg; auto).
        apply wp_bind. apply wp_wr; [lia|]. replace (length pre + sg cur - length pre) with (sg cur) by lia.
        apply wp_ret. split.
        -- exists (sg cur), v', v2. cj; auto.
           ++ apply follow; auto.
              ** intros Hd. change (comp (proj v') (proj w)) with (lt v' w). change (comp (proj w) (proj v')) with (lt w v').
                 assert (cur <> sg cur) as N by (intros G; apply Hfr; rewrite <- G; apply HIc).
                 assert (equivalent lt w v' = false) as He.
                 { destruct (Nat.lt_ge_cases cur (sg cur)) as [L|L]; [exact (Hd _ _ _ _ L Hw Hv')|].
                   rewrite (eqv_sym lt). apply (Hd (sg cur) cur v' w); auto. lia. }
                 unfold equivalent in He. rewrite andb_comm. exact He.
              ** intros Hs. pose proof (sortings_equiv lt HW xs ys HP Hs HS cur w v' Hw) as He.
                 unfold equivalent in He. rewrite andb_comm. apply He. destruct (Hsg' cur Hcl) as (_ & ->). auto.
           ++ intros j Hj. apply vis_upd; [lia|]. right. auto.
        -- pose proof (visited_upd s' (sg cur) (not_vis s' (sg cur) ltac:(lia) Hfr)) as Hvu.
           pose proof (cnt_length _ (fun b : bool => b) (upd (sg cur) true s')) as Hvl. rewrite upd_length in Hvl.
           fold (visited (upd (sg cur) true s')) in Hvl. lia.
Qed.
End ExcProbe.
