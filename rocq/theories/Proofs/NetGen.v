(** The generated networks: Batcher's merge exchange, for every size, and odd-even merge, for every
    power of two. *)
From Coq Require Import List Arith Lia Bool ZArith Zify ZifyNat.
From Verif Require Import Lang.Mem Proofs.Wp Model.Networks Proofs.NetLib.
Import ListNotations.

(** ** Powers of two and bits *)
Lemma land_pow2 : forall i s, Nat.land i (2 ^ s) = if Nat.odd (i / 2 ^ s) then 2 ^ s else 0.
Proof.
  intros i s. apply Nat.bits_inj. intros j.
  rewrite Nat.land_spec, Nat.pow2_bits_eqb.
  destruct (Nat.eqb_spec s j) as [<-|H].
  - rewrite andb_true_r, Nat.testbit_odd, Nat.shiftr_div_pow2.
    destruct (Nat.odd (i / 2 ^ s)); [now rewrite Nat.pow2_bits_true|now rewrite Nat.bits_0].
  - rewrite andb_false_r. destruct (Nat.odd (i / 2 ^ s)); [|now rewrite Nat.bits_0].
    now rewrite Nat.pow2_bits_false.
Qed.

Lemma pow2_pos : forall s, 0 < 2 ^ s.
Proof. induction s; simpl; lia. Qed.

Lemma div_pow2_half : forall s, 2 ^ S s / 2 = 2 ^ s.
Proof. intros. rewrite Nat.pow_succ_r', Nat.mul_comm. apply Nat.div_mul. lia. Qed.

(** Position [y] in class [c] modulo [p]. *)
Lemma odd_class : forall p c k, c < p -> Nat.odd ((c + k * p) / p) = Nat.odd k.
Proof. intros. rewrite Nat.div_add by lia. rewrite Nat.div_small by lia. reflexivity. Qed.

(** ** Merge exchange *)
Section MergeExchange.
Variable n : nat.

Definition tail_true (v : nat -> bool) : Prop := forall y, n <= y -> v y = true.

(** A layer of merge exchange on a vector that is true from [n] on. *)
Lemma me_layer : forall s (r : bool) d v y, 0 < d -> Nat.odd (d / 2 ^ s) = true -> d mod 2 ^ s = 0 ->
  tail_true v ->
  brun (merge_exchange_layer n (2 ^ s) (if r then 2 ^ s else 0) d) v y =
  if Bool.eqb (Nat.odd (y / 2 ^ s)) r then v y && v (y + d)
  else if d <=? y then v (y - d) || v y else v y.
Proof.
  intros s r d v y Hd Hodd Hmod HT.
  pose proof (pow2_pos s) as Hp. set (p := 2 ^ s) in *.
  assert (exists e, d = (2 * e + 1) * p) as (e & He).
  { apply Nat.odd_spec in Hodd as (e & He). exists e. rewrite <- He.
    pose proof (Nat.div_mod d p). lia. }
  assert (forall x, Nat.odd ((x + d) / p) = negb (Nat.odd (x / p))) as HO.
  { intros x. subst d. rewrite Nat.div_add by lia.
    rewrite Nat.odd_add.
    replace (Nat.odd (2 * e + 1)) with true; [destruct (Nat.odd (x / p)); auto|].
    symmetry. apply Nat.odd_spec. exists e. lia. }
  unfold merge_exchange_layer.
  rewrite layer_spec with (P := fun i => Bool.eqb (Nat.odd (i / p)) r && (i + d <? n)); auto.
  - assert (forall z, n <= z + d -> v z && v (z + d) = v z) as E1.
    { intros z Hz. rewrite (HT (z + d)) by lia. apply andb_true_r. }
    destruct (Bool.eqb (Nat.odd (y / p)) r) eqn:E; simpl.
    + destruct (Nat.ltb_spec (y + d) n); auto. rewrite E1 by lia.
      destruct (Nat.leb_spec d y); simpl; auto.
      assert (Bool.eqb (Nat.odd ((y - d) / p)) r = false) as ->; auto.
      apply eqb_prop in E. specialize (HO (y - d)). replace (y - d + d) with y in HO by lia.
      rewrite E in HO. destruct (Nat.odd ((y - d) / p)), r; auto; discriminate.
    + destruct (Nat.leb_spec d y); simpl; auto.
      assert (Bool.eqb (Nat.odd ((y - d) / p)) r = true) as ->.
      { specialize (HO (y - d)). replace (y - d + d) with y in HO by lia.
        rewrite HO in E. destruct (Nat.odd ((y - d) / p)), r; auto. }
      simpl. replace (y - d + d) with y by lia.
      destruct (Nat.ltb_spec y n); auto. rewrite (HT y) by lia. now rewrite orb_true_r.
  - intros x. rewrite filter_In, in_seq, andb_true_iff, Nat.ltb_lt.
    unfold p. rewrite land_pow2. fold p.
    assert (p =? 0 = false) as E0 by (apply Nat.eqb_neq; lia).
    assert (0 =? p = false) as E1 by (apply Nat.eqb_neq; lia).
    destruct (Nat.odd (x / p)), r; cbn [Bool.eqb]; rewrite ?Nat.eqb_refl, ?E0, ?E1;
      clear - Hd; intuition (try lia; try discriminate).
  - intros x Hx. apply andb_prop in Hx as [Hx _]. apply eqb_prop in Hx.
    rewrite HO, Hx. destruct r; auto.
Qed.

Lemma me_layer_tail : forall s (r : bool) d v, 0 < d -> Nat.odd (d / 2 ^ s) = true -> d mod 2 ^ s = 0 ->
  tail_true v -> tail_true (brun (merge_exchange_layer n (2 ^ s) (if r then 2 ^ s else 0) d) v).
Proof.
  intros s r d v H1 H2 H3 HT y Hy. rewrite me_layer; auto.
  rewrite (HT y), (HT (y + d)) by lia.
  destruct (Bool.eqb _ _); auto. destruct (d <=? y); auto. apply orb_true_r.
Qed.

(** Each class modulo [p] is a threshold. *)
Definition classes (p : nat) (v : nat -> bool) : Prop :=
  forall c, c < p -> exists z, forall k, v (c + k * p) = (z <=? k).

(** Even and odd positions of each class modulo [p] are thresholds [a >= b], at most [g] apart. *)
Definition split_classes (p g : nat) (v : nat -> bool) : Prop :=
  forall c, c < p -> exists a b, b <= a <= b + g /\
    (forall k, v (c + 2 * k * p) = (a <=? k)) /\ (forall k, v (c + (2 * k + 1) * p) = (b <=? k)).

Lemma split_done : forall p v, split_classes p 1 v -> classes p v.
Proof.
  intros p v H c Hc. destruct (H c Hc) as (a & b & Hab & HA & HB). exists (a + b). intros k.
  destruct (Nat.Even_or_Odd k) as [[m ->]|[m ->]].
  - rewrite HA. destruct (Nat.leb_spec a m), (Nat.leb_spec (a + b) (2 * m)); auto; lia.
  - rewrite HB. destruct (Nat.leb_spec b m), (Nat.leb_spec (a + b) (2 * m + 1)); auto; lia.
Qed.

(** First layer of a pass. *)
Lemma me_first : forall s t v, s < t -> n <= 2 ^ t -> tail_true v -> classes (2 * 2 ^ s) v ->
  split_classes (2 ^ s) (2 ^ (t - 1 - s)) (brun (merge_exchange_layer n (2 ^ s) 0 (2 ^ s)) v).
Proof.
  intros s t v Hs Hn HT HC c Hc. pose proof (pow2_pos s) as Hp.
  assert (2 ^ t = 2 * 2 ^ (t - 1 - s) * 2 ^ s) as Ht.
  { rewrite <- Nat.pow_succ_r', <- Nat.pow_add_r. f_equal. lia. }
  set (p := 2 ^ s) in *. set (g := 2 ^ (t - 1 - s)) in *.
  destruct (HC c) as (a & HA); [lia|]. destruct (HC (c + p)) as (b & HB); [lia|].
  assert (a <= g) as Ha.
  { specialize (HA g). rewrite HT in HA by lia. symmetry in HA. now apply Nat.leb_le in HA. }
  assert (b <= g) as Hb.
  { specialize (HB g). rewrite HT in HB by lia. symmetry in HB. now apply Nat.leb_le in HB. }
  exists (max a b), (min a b). split; [lia|].
  assert (Nat.odd (p / p) = true) as Hodd by (rewrite Nat.div_same by lia; reflexivity).
  assert (p mod p = 0) as Hmod by (apply Nat.mod_same; lia).
  pose proof (fun y => me_layer s false p v y Hp Hodd Hmod HT) as L. cbv iota in L. fold p in L.
  split; intros k; rewrite L, odd_class by auto.
  - replace (Nat.odd (2 * k)) with false by (symmetry; rewrite Nat.odd_mul; auto).
    cbn [Bool.eqb]. replace (c + 2 * k * p) with (c + k * (2 * p)) by lia.
    replace (c + k * (2 * p) + p) with (c + p + k * (2 * p)) by lia. rewrite HA, HB.
    destruct (Nat.leb_spec a k), (Nat.leb_spec b k), (Nat.leb_spec (max a b) k); auto; lia.
  - replace (Nat.odd (2 * k + 1)) with true by (symmetry; apply Nat.odd_spec; exists k; lia).
    cbn [Bool.eqb]. destruct (Nat.leb_spec p (c + (2 * k + 1) * p)); [|lia].
    replace (c + (2 * k + 1) * p - p) with (c + k * (2 * p)) by lia.
    replace (c + (2 * k + 1) * p) with (c + p + k * (2 * p)) by lia. rewrite HA, HB.
    destruct (Nat.leb_spec a k), (Nat.leb_spec b k), (Nat.leb_spec (min a b) k); auto; lia.
Qed.

(** The other layers: distance [(2h - 1) p]. *)
Lemma me_next : forall s h v, 0 < h -> tail_true v -> split_classes (2 ^ s) (2 * h) v ->
  split_classes (2 ^ s) h
    (brun (merge_exchange_layer n (2 ^ s) (2 ^ s) ((2 * h - 1) * 2 ^ s)) v).
Proof.
  intros s h v Hh HT HC c Hc. pose proof (pow2_pos s) as Hp. set (p := 2 ^ s) in *.
  assert (0 < (2 * h - 1) * p) as Hd by nia.
  assert (Nat.odd ((2 * h - 1) * p / p) = true) as Hodd.
  { rewrite Nat.div_mul by lia. apply Nat.odd_spec. exists (h - 1). lia. }
  assert ((2 * h - 1) * p mod p = 0) as Hmod by (apply Nat.mod_mul; lia).
  pose proof (fun y => me_layer s true ((2 * h - 1) * p) v y Hd Hodd Hmod HT) as L. cbv iota in L. fold p in L.
  destruct (HC c Hc) as (a & b & Hab & HA & HB).
  assert (exists a' b', (a' = min a (b + h)) /\ b' = max b (a - h)) as (a' & b' & -> & ->) by eauto.
  exists (min a (b + h)), (max b (a - h)). split; [lia|].
  split; intros k; rewrite L, odd_class by auto.
  - replace (Nat.odd (2 * k)) with false by (symmetry; rewrite Nat.odd_mul; auto). cbn [Bool.eqb].
    destruct (Nat.leb_spec ((2 * h - 1) * p) (c + 2 * k * p)) as [Hle|Hgt].
    + assert (h <= k) by nia.
      replace (c + 2 * k * p - (2 * h - 1) * p) with (c + (2 * (k - h) + 1) * p) by nia.
      rewrite HA, HB.
      destruct (Nat.leb_spec a k), (Nat.leb_spec b (k - h)), (Nat.leb_spec (min a (b + h)) k); auto; lia.
    + assert (k < h) by nia. rewrite HA.
      destruct (Nat.leb_spec a k), (Nat.leb_spec (min a (b + h)) k); auto; lia.
  - replace (Nat.odd (2 * k + 1)) with true by (symmetry; apply Nat.odd_spec; exists k; lia). cbn [Bool.eqb].
    replace (c + (2 * k + 1) * p + (2 * h - 1) * p) with (c + 2 * (k + h) * p) by nia.
    rewrite HA, HB.
    destruct (Nat.leb_spec b k), (Nat.leb_spec a (k + h)), (Nat.leb_spec (max b (a - h)) k); auto; lia.
Qed.

Lemma me_layer_valid : forall p r d, 0 < d -> valid n (merge_exchange_layer n p r d).
Proof.
  intros p r d Hd. apply Forall_forall. intros q Hq. unfold merge_exchange_layer in Hq.
  apply in_map_iff in Hq as (i & <- & Hi). apply filter_In in Hi as [Hi _]. apply in_seq in Hi.
  split; simpl; lia.
Qed.

Lemma me_while_next : forall s i fuel, i <= fuel -> exists l,
  merge_exchange_while fuel n (2 ^ s) (2 ^ (s + i) / 2) (2 ^ s) (2 ^ (s + i) - 2 ^ s) = Some l /\
  valid n l /\
  forall v, tail_true v -> split_classes (2 ^ s) (2 ^ i) v ->
    tail_true (brun l v) /\ split_classes (2 ^ s) 1 (brun l v).
Proof.
  intros s. pose proof (pow2_pos s) as Hp. induction i as [|i IH]; intros fuel Hf.
  - exists []. rewrite Nat.add_0_r, Nat.sub_diag. split; [destruct fuel; reflexivity|].
    split; [constructor|]. auto.
  - destruct fuel as [|fuel]; [lia|]. destruct (IH fuel) as (l & E & HV & HS); [lia|].
    pose proof (pow2_pos i) as Hi.
    assert (2 ^ (s + S i) = 2 * 2 ^ i * 2 ^ s) as Ep.
    { rewrite <- Nat.pow_succ_r', <- Nat.pow_add_r. f_equal. lia. }
    set (d := 2 ^ (s + S i) - 2 ^ s) in *.
    assert (d = (2 * 2 ^ i - 1) * 2 ^ s) as Ed by (unfold d; nia).
    assert (0 < d) as Hd by nia.
    exists (merge_exchange_layer n (2 ^ s) (2 ^ s) d ++ l).
    cbn [merge_exchange_while]. destruct (Nat.eqb_spec d 0); [lia|].
    replace (s + S i) with (S (s + i)) by lia. rewrite div_pow2_half, E.
    split; [reflexivity|]. split; [apply valid_app; split; auto; apply me_layer_valid; auto|].
    intros v HT HC. rewrite brun_app. apply HS.
    + apply (me_layer_tail s true d); auto; rewrite Ed.
      * rewrite Nat.div_mul by lia. apply Nat.odd_spec. exists (2 ^ i - 1). lia.
      * apply Nat.mod_mul. lia.
    + rewrite Ed. apply me_next; auto.
Qed.

Lemma me_pass : forall s t, s < t -> n <= 2 ^ t -> exists l,
  merge_exchange_while (S (S t)) n (2 ^ s) (2 ^ (t - 1)) 0 (2 ^ s) = Some l /\ valid n l /\
  forall v, tail_true v -> classes (2 * 2 ^ s) v -> tail_true (brun l v) /\ classes (2 ^ s) (brun l v).
Proof.
  intros s t Hs Hn. pose proof (pow2_pos s) as Hp.
  destruct (me_while_next s (t - 1 - s) (S t)) as (l & E & HV & HS); [lia|].
  replace (s + (t - 1 - s)) with (t - 1) in E by lia.
  exists (merge_exchange_layer n (2 ^ s) 0 (2 ^ s) ++ l).
  remember (S t) as f eqn:Ef. cbn [merge_exchange_while]. destruct (Nat.eqb_spec (2 ^ s) 0); [lia|].
  rewrite E. split; [reflexivity|]. split; [apply valid_app; split; auto; apply me_layer_valid; auto|].
  intros v HT HC. rewrite brun_app. destruct (HS (brun (merge_exchange_layer n (2 ^ s) 0 (2 ^ s)) v)) as [H1 H2].
  - apply (me_layer_tail s false (2 ^ s)); auto.
    + rewrite Nat.div_same by lia. reflexivity.
    + apply Nat.mod_same. lia.
  - apply me_first; auto.
  - split; auto. apply split_done; auto.
Qed.

Lemma me_for : forall t s fuel, s < fuel -> s < t -> n <= 2 ^ t -> exists l,
  merge_exchange_for fuel n t (2 ^ s) = Some l /\ valid n l /\
  forall v, tail_true v -> classes (2 * 2 ^ s) v -> classes 1 (brun l v).
Proof.
  intros t. induction s as [|s IH]; intros fuel Hf Hs Hn.
  - destruct fuel as [|fuel]; [lia|]. cbn [merge_exchange_for].
    destruct (me_pass 0 t) as (l & E & HV & HP); auto. change (2 ^ 0) with 1 in *. simpl (1 =? 0). cbv iota.
    rewrite E. exists (l ++ []). split; [destruct fuel; reflexivity|].
    rewrite app_nil_r. split; auto. intros v HT HC. apply HP; auto.
  - destruct fuel as [|fuel]; [lia|]. cbn [merge_exchange_for].
    destruct (me_pass (S s) t) as (l & E & HV & HP); auto.
    destruct (IH fuel) as (l2 & E2 & HV2 & HP2); [lia|lia|auto|].
    pose proof (pow2_pos (S s)). destruct (Nat.eqb_spec (2 ^ S s) 0); [lia|].
    rewrite E, div_pow2_half, E2. exists (l ++ l2). split; [reflexivity|].
    split; [apply valid_app; auto|]. intros v HT HC. rewrite brun_app.
    destruct (HP v HT HC). apply HP2; auto.
Qed.
End MergeExchange.

Lemma ceil_log2_loop_spec : forall fuel m log, m <= fuel -> exists t,
  ceil_log2_loop fuel m log = Some (log + t) /\ m < 2 ^ t /\ (0 < m -> 0 < t).
Proof.
  induction fuel as [|fuel IH]; intros m log Hm.
  - exists 0. assert (m = 0) by lia. subst. simpl. rewrite Nat.add_0_r. repeat split; lia.
  - cbn [ceil_log2_loop]. destruct (Nat.eqb_spec m 0) as [->|H].
    + exists 0. rewrite Nat.add_0_r. simpl. repeat split; lia.
    + pose proof (Nat.div_mod m 2 ltac:(lia)). pose proof (Nat.mod_upper_bound m 2 ltac:(lia)).
      destruct (IH (m / 2) (S log)) as (t & E & Ht & _); [lia|].
      exists (S t). rewrite E. split; [f_equal; lia|]. rewrite Nat.pow_succ_r'. split; lia.
Qed.

Lemma ceil_log2_spec : forall n, 2 <= n -> exists t, ceil_log2 n = Some t /\ n <= 2 ^ t /\ 0 < t.
Proof.
  intros n Hn. unfold ceil_log2. destruct (ceil_log2_loop_spec n (n - 1) 0) as (t & E & H1 & H2); [lia|].
  exists t. split; [exact E|]. lia.
Qed.

Theorem merge_exchange_ok : forall n, exists l,
  merge_exchange_index_pairs n = Some l /\ valid n l /\ sorts01 n l.
Proof.
  intros n. unfold merge_exchange_index_pairs. destruct (Nat.ltb_spec n 2).
  - exists []. split; auto. split; [constructor|]. intros v i j. lia.
  - destruct (ceil_log2_spec n) as (t & -> & Hn & Ht); auto.
    destruct (me_for n t (t - 1) (S t)) as (l & E & HV & HP); auto; try lia.
    exists l. split; auto. split; auto. intros v i j Hij Hj.
    set (w := fun k => if k <? n then v k else true).
    assert (forall k, k < n -> v k = w k) as Hw.
    { intros k Hk. unfold w. destruct (Nat.ltb_spec k n); auto; lia. }
    rewrite (brun_local n l v w), (brun_local n l v w) by (auto; lia).
    destruct (HP w) with (c := 0) as (z & Hz); auto.
    + intros y Hy. unfold w. destruct (Nat.ltb_spec y n); auto; lia.
    + rewrite <- Nat.pow_succ_r'. replace (S (t - 1)) with t by lia.
      intros c Hc. exists (if w c then 0 else 1). intros k.
      destruct k as [|k].
      * rewrite Nat.add_0_r. destruct (w c); auto.
      * unfold w at 1. destruct (Nat.ltb_spec (c + S k * 2 ^ t) n); [simpl in *; lia|].
        destruct (w c); auto.
    + specialize (Hz i) as Hi. specialize (Hz j) as Hj'.
      rewrite Nat.mul_1_r, Nat.add_0_l in Hi, Hj'. rewrite Hi, Hj'.
      destruct (Nat.leb_spec z i), (Nat.leb_spec z j); auto; lia.
Qed.
