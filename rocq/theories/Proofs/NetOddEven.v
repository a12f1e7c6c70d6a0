(** The odd-even merge network, for every power of two. *)
From Coq Require Import List Arith Lia Bool.
From Verif Require Import Lang.Mem Proofs.Wp Model.Networks Proofs.NetLib Proofs.NetGen.
Import ListNotations.

(** The pairs of a layer, in terms of their lower ends. *)
Lemma oe_j_spec : forall n p k fuel j, 0 < k -> n - j <= fuel -> exists xs,
  odd_even_merge_j fuel n p k j = Some (map (fun x => (x, x + k)) xs) /\
  forall x, In x xs <-> exists l i, i < k /\ x = j + 2 * k * l + i /\ j + 2 * k * l < n - k /\
                        x / (p * 2) = (x + k) / (p * 2).
Proof.
  intros n p k. induction fuel as [|fuel IH]; intros j Hk Hf.
  - exists []. cbn [odd_even_merge_j]. destruct (Nat.ltb_spec j (n - k)); [lia|]. simpl.
    split; auto. intros x. split; [intros []|]. intros (l & i & ? & ? & ? & ?). nia.
  - cbn [odd_even_merge_j]. destruct (Nat.ltb_spec j (n - k)) as [H|H]; simpl negb; cbv iota.
    + destruct (IH (j + 2 * k)) as (xs & E & HI); [lia|lia|]. rewrite E.
      exists (map (fun i => i + j) (filter (fun i => (i + j) / (p * 2) =? (i + j + k) / (p * 2)) (seq 0 k)) ++ xs).
      split.
      { unfold odd_even_merge_run. now rewrite map_app, map_map. }
      intros x. rewrite in_app_iff, HI, in_map_iff. split.
      * intros [(i & <- & Hi)|(l & i & H1 & -> & H3 & H4)].
        -- apply filter_In in Hi as [Hi He]. apply in_seq in Hi. apply Nat.eqb_eq in He.
           exists 0, i. repeat split; try lia; auto.
        -- exists (S l), i. repeat split; try nia; auto.
      * intros (l & i & H1 & -> & H3 & H4). destruct l as [|l].
        -- left. exists i. split; [lia|]. apply filter_In. rewrite in_seq, Nat.eqb_eq.
           split; [lia|]. replace (i + j) with (j + 2 * k * 0 + i) by lia. auto.
        -- right. exists l, i. split; [lia|]. split; [lia|]. split; [nia|]. auto.
    + exists []. split; auto. intros x. split; [intros []|]. intros (l & i & ? & ? & ? & ?). nia.
Qed.

Lemma mod_block : forall q b x, x < q -> (q * b + x) mod q = x.
Proof.
  intros. rewrite Nat.add_comm, Nat.mul_comm, Nat.mod_add by lia. apply Nat.mod_small; auto.
Qed.

Lemma div_block : forall q b x, x < q -> (q * b + x) / q = b.
Proof.
  intros. rewrite Nat.add_comm, Nat.mul_comm, Nat.div_add by lia. now rewrite Nat.div_small.
Qed.

Lemma euclid : forall x q, 0 < q -> exists b r, r < q /\ x = q * b + r.
Proof.
  intros x q Hq. exists (x / q), (x mod q). split; [apply Nat.mod_upper_bound; lia|].
  apply Nat.div_mod. lia.
Qed.

(** [z] zeros in the class [i] modulo [k] of a sequence with [a] leading zeros. *)
Definition cz (k a i z : nat) : Prop := a <= i + z * k /\ (z = 0 \/ i + (z - 1) * k < a).

Lemma cz_exists : forall k a i, 0 < k -> exists z, cz k a i z.
Proof.
  intros k a i Hk. destruct (Nat.le_gt_cases a i).
  - exists 0. unfold cz. lia.
  - destruct (euclid (a - i - 1) k Hk) as (b & r & Hr & E).
    exists (S b). unfold cz. split; [nia|]. right. replace (S b - 1) with b by lia. nia.
Qed.

Lemma cz_unique : forall k a i z z', 0 < k -> cz k a i z -> cz k a i z' -> z = z'.
Proof.
  unfold cz. intros k a i z z' Hk [H1 H2] [H3 H4].
  destruct z as [|z], z' as [|z']; auto.
  - destruct H4; [lia|]. nia.
  - destruct H2; [lia|]. nia.
  - destruct H2; [lia|]. destruct H4; [lia|].
    replace (S z - 1) with z in * by lia. replace (S z' - 1) with z' in * by lia. nia.
Qed.

Lemma cz_half : forall h a i A B, i < h -> cz (2 * h) a i A -> cz (2 * h) a (i + h) B ->
  cz h a i (A + B) /\ B <= A <= B + 1.
Proof.
  unfold cz. intros h a i A B Hi [H1 H2] [H3 H4].
  destruct A as [|A].
  - assert (B = 0) by (destruct H4; [auto|nia]). subst. split; [|lia]. split; [nia|auto].
  - destruct H2 as [H2|H2]; [lia|]. replace (S A - 1) with A in H2 by lia.
    assert (B = A \/ B = S A) as HB.
    { destruct B as [|B].
      - assert (A = 0) by nia. auto.
      - destruct H4 as [H4|H4]; [lia|]. replace (S B - 1) with B in H4 by lia.
        assert (A < S (S B)) by nia. assert (B < S A) by nia.
        assert (2 * A < 1 + 2 * S B) by nia. lia. }
    destruct HB as [->| ->].
    + split; [|lia]. split; [nia|]. right. replace (S A + A - 1) with (2 * A) by lia. nia.
    + assert (i + (2 * A + 1) * h < a) as H5.
      { destruct H4 as [H4|H4]; [lia|]. replace (S A - 1) with A in H4 by lia. nia. }
      split; [|lia]. split; [nia|]. right. replace (S A + S A - 1) with (2 * A + 1) by lia. auto.
Qed.

Lemma cz_bound : forall k a i z G, 0 < k -> cz k a i z -> a <= k * G -> z <= G.
Proof.
  unfold cz. intros k a i z G Hk [H1 H2] Ha. destruct H2 as [->|H2]; [lia|].
  destruct z; [lia|]. replace (S z - 1) with z in H2 by lia. nia.
Qed.

Section Merge.
(** Blocks of [2 p]; [n] is made of [R] of them. *)
Variables n p R : nat.
Hypothesis Hp : 0 < p.
Hypothesis Hn : n = 2 * p * R.

Definition blocks (q : nat) (v : nat -> bool) : Prop :=
  forall B, q * B + q <= n -> exists z, z <= q /\ forall x, x < q -> v (q * B + x) = (z <=? x).

Definition inv (k : nat) (v : nat -> bool) : Prop :=
  forall B, B < R -> exists a b, a <= p /\ b <= p /\
    forall i c za zb, i < k -> c * k + i < 2 * p -> cz k a i za -> cz k b i zb ->
      v (2 * p * B + c * k + i) = (za + zb <=? c).

Lemma oe_first : exists l, odd_even_merge_j n n p p (p mod p) = Some l /\ valid n l /\
  forall v, blocks p v -> inv p (brun l v).
Proof.
  rewrite Nat.mod_same by lia.
  destruct (oe_j_spec n p p n 0) as (xs & E & HI); [lia|lia|].
  exists (map (fun x => (x, x + p)) xs). split; auto.
  set (P := fun x => (x mod (2 * p) <? p) && (x <? n)).
  assert (forall x, In x xs <-> P x = true) as HP.
  { intros x. rewrite HI. unfold P. rewrite andb_true_iff, !Nat.ltb_lt.
    replace (p * 2) with (2 * p) by lia. split.
    - intros (l & i & H1 & H2 & H3 & H4). replace x with (2 * p * l + i) by lia.
      rewrite mod_block by lia. split; auto. assert (l < R) by nia. nia.
    - intros [H1 H2]. destruct (euclid x (2 * p)) as (b & r & Hr & Ex); [lia|].
      rewrite Ex, mod_block in H1 by lia. exists b, r. assert (b < R) by nia. repeat split; try nia.
      rewrite Ex. rewrite <- Nat.add_assoc, !div_block by lia. auto. }
  split.
  - apply Forall_forall. intros q Hq. apply in_map_iff in Hq as (x & <- & Hx).
    apply HI in Hx as (l & i & H1 & H2 & H3 & H4). split; simpl; [lia|].
    assert (l < R) by nia. nia.
  - intros v HB B HBR.
    destruct (HB (2 * B)) as (a & Ha & HA); [nia|]. destruct (HB (2 * B + 1)) as (b & Hb & HBb); [nia|].
    exists a, b. split; auto. split; auto. intros i c za zb Hi Hc Hza Hzb.
    assert (forall x, P x = true -> P (x + p) = false) as HD.
    { intros x Hx. unfold P in *. apply andb_prop in Hx as [Hx _]. apply Nat.ltb_lt in Hx.
      destruct (euclid x (2 * p)) as (b' & r & Hr & Ex); [lia|]. rewrite Ex, mod_block in Hx by lia.
      rewrite Ex, <- Nat.add_assoc, mod_block by lia.
      destruct (Nat.ltb_spec (r + p) p); auto; lia. }
    rewrite (layer_spec p xs P v Hp HP HD).
    assert (za <= 1) by (apply (cz_bound p a i za 1); auto; lia).
    assert (zb <= 1) by (apply (cz_bound p b i zb 1); auto; lia).
    assert (za = 0 /\ a <= i \/ za = 1 /\ i < a) as Fa.
    { unfold cz in Hza. destruct za as [|[|za]]; lia. }
    assert (zb = 0 /\ b <= i \/ zb = 1 /\ i < b) as Fb.
    { unfold cz in Hzb. destruct zb as [|[|zb]]; lia. }
    assert (c = 0 \/ c = 1) as [->| ->] by nia.
    + assert (P (2 * p * B + 0 * p + i) = true) as ->.
      { unfold P. rewrite Nat.mul_0_l, Nat.add_0_r, mod_block by lia.
        destruct (Nat.ltb_spec i p); [|lia]. simpl. apply Nat.ltb_lt. nia. }
      replace (2 * p * B + 0 * p + i) with (p * (2 * B) + i) by lia.
      replace (p * (2 * B) + i + p) with (p * (2 * B + 1) + i) by lia.
      rewrite HA, HBb by auto. clear - Fa Fb.
      destruct (Nat.leb_spec a i), (Nat.leb_spec b i), (Nat.leb_spec (za + zb) 0); auto; lia.
    + assert (P (2 * p * B + 1 * p + i) = false) as ->.
      { unfold P. rewrite <- Nat.add_assoc, mod_block by lia.
        destruct (Nat.ltb_spec (1 * p + i) p); auto; lia. }
      destruct (Nat.leb_spec p (2 * p * B + 1 * p + i)); [|nia].
      replace (2 * p * B + 1 * p + i - p) with (2 * p * B + i) by nia.
      assert (P (2 * p * B + i) = true) as ->.
      { unfold P. rewrite mod_block by lia.
        destruct (Nat.ltb_spec i p); [|lia]. simpl. apply Nat.ltb_lt. nia. }
      rewrite andb_true_l.
      replace (2 * p * B + 1 * p + i) with (p * (2 * B + 1) + i) by lia.
      replace (2 * p * B + i) with (p * (2 * B) + i) by lia.
      rewrite HA, HBb by auto. clear - Fa Fb.
      destruct (Nat.leb_spec a i), (Nat.leb_spec b i), (Nat.leb_spec (za + zb) 1); auto; lia.
Qed.

Lemma oe_next : forall h G, 0 < h -> p = 2 * h * G -> exists l,
  odd_even_merge_j n n p h (h mod p) = Some l /\ valid n l /\
  forall v, inv (2 * h) v -> inv h (brun l v).
Proof.
  intros h G Hh HG. assert (0 < G) as HG0 by nia. assert (h < p) as Hhp by nia.
  rewrite Nat.mod_small by lia.
  destruct (oe_j_spec n p h n h) as (xs & E & HI); [lia|lia|].
  exists (map (fun x => (x, x + h)) xs). split; auto.
  set (P := fun x => (h <=? x mod (2 * h)) && (x mod (2 * p) + h <? 2 * p) && (x <? n)).
  assert (forall x, In x xs <-> P x = true) as HP.
  { intros x. rewrite HI. unfold P. rewrite !andb_true_iff, !Nat.ltb_lt, Nat.leb_le.
    replace (p * 2) with (2 * p) by lia. split.
    - intros (l & i & H1 & H2 & H3 & H4).
      assert (x mod (2 * h) = h + i) as Em.
      { replace x with (2 * h * l + (h + i)) by lia. apply mod_block. lia. }
      rewrite Em. split; [split; [lia|]|nia].
      destruct (euclid x (2 * p)) as (b & r & Hr & Ex); [lia|]. rewrite Ex, mod_block by lia.
      rewrite Ex, <- Nat.add_assoc, div_block in H4 by lia.
      destruct (Nat.lt_ge_cases (r + h) (2 * p)); auto. exfalso.
      assert (b + 1 <= (2 * p * b + (r + h)) / (2 * p)); [|lia].
      apply Nat.div_le_lower_bound; lia.
    - intros [[H1 H2] H3].
      destruct (euclid x (2 * h)) as (l & r & Hr & Ex); [lia|].
      rewrite Ex, mod_block in H1 by lia.
      destruct (euclid x (2 * p)) as (b & r' & Hr' & Ex'); [lia|]. rewrite Ex', mod_block in H2 by lia.
      exists l, (r - h). assert (b < R) by nia.
      split; [lia|]. split; [lia|]. split; [nia|].
      rewrite Ex', <- Nat.add_assoc, !div_block by lia. auto. }
  split.
  - apply Forall_forall. intros q Hq. apply in_map_iff in Hq as (x & <- & Hx).
    apply HP in Hx. unfold P in Hx. rewrite !andb_true_iff, !Nat.ltb_lt, Nat.leb_le in Hx.
    destruct Hx as [[H1 H2] H3]. split; simpl; [lia|].
    destruct (euclid x (2 * p)) as (b & r & Hr & Ex); [lia|]. rewrite Ex, mod_block in H2 by lia.
    assert (b < R) by nia. nia.
  - assert (forall x, P x = true -> P (x + h) = false) as HD.
    { intros x Hx. unfold P in *. apply andb_prop in Hx as [Hx _]. apply andb_prop in Hx as [Hx _].
      apply Nat.leb_le in Hx. destruct (euclid x (2 * h)) as (l & r & Hr & Ex); [lia|].
      rewrite Ex, mod_block in Hx by lia.
      assert ((x + h) mod (2 * h) = r - h) as ->.
      { replace (x + h) with (2 * h * (l + 1) + (r - h)) by nia. apply mod_block. lia. }
      destruct (Nat.leb_spec h (r - h)); auto; lia. }
    intros v HV B HBR. destruct (HV B HBR) as (a & b & Ha & Hb & HI2).
    exists a, b. split; auto. split; auto. intros i c za zb Hi Hc Hza Hzb.
    destruct (cz_exists (2 * h) a i) as (A1 & CA1); [lia|].
    destruct (cz_exists (2 * h) b i) as (A2 & CA2); [lia|].
    destruct (cz_exists (2 * h) a (i + h)) as (B1 & CB1); [lia|].
    destruct (cz_exists (2 * h) b (i + h)) as (B2 & CB2); [lia|].
    destruct (cz_half h a i A1 B1 Hi CA1 CB1) as [C1 HAB1].
    destruct (cz_half h b i A2 B2 Hi CA2 CB2) as [C2 HAB2].
    rewrite (cz_unique h a i za (A1 + B1)), (cz_unique h b i zb (A2 + B2)) by auto.
    assert (A1 <= G) by (apply (cz_bound (2 * h) a i A1 G); auto; lia).
    assert (A2 <= G) by (apply (cz_bound (2 * h) b i A2 G); auto; lia).
    assert (forall m, 2 * m * h + i < 2 * p -> v (2 * p * B + 2 * m * h + i) = (A1 + A2 <=? m)) as HEv.
    { intros m Hm. replace (2 * p * B + 2 * m * h + i) with (2 * p * B + m * (2 * h) + i) by lia.
      apply HI2; auto; lia. }
    assert (forall m, (2 * m + 1) * h + i < 2 * p -> v (2 * p * B + (2 * m + 1) * h + i) = (B1 + B2 <=? m)) as HOd.
    { intros m Hm. replace (2 * p * B + (2 * m + 1) * h + i) with (2 * p * B + m * (2 * h) + (i + h)) by lia.
      apply HI2; auto; lia. }
    assert (forall m, (2 * m * h + i) mod (2 * h) = i) as Me.
    { intros m. replace (2 * m * h + i) with (2 * h * m + i) by lia. apply mod_block. lia. }
    assert (forall m, ((2 * m + 1) * h + i) mod (2 * h) = h + i) as Mo.
    { intros m. replace ((2 * m + 1) * h + i) with (2 * h * m + (h + i)) by lia. apply mod_block. lia. }
    assert (forall y, (2 * p * B + y) mod (2 * h) = y mod (2 * h)) as MB.
    { intros y. replace (2 * p * B + y) with (y + (2 * G * B) * (2 * h)) by nia. apply Nat.mod_add. lia. }
    assert (forall y, y < 2 * p -> (2 * p * B + y <? n) = true) as Ln.
    { intros y Hy. apply Nat.ltb_lt. nia. }
    rewrite (layer_spec h xs P v Hh HP HD).
    destruct (Nat.Even_or_Odd c) as [[m Hm]|[m Hm]]; subst c.
    + assert (P (2 * p * B + 2 * m * h + i) = false) as ->.
      { unfold P. rewrite <- Nat.add_assoc, MB, Me.
        destruct (Nat.leb_spec h i); auto; lia. }
      destruct m as [|m].
      * assert ((h <=? 2 * p * B + 2 * 0 * h + i) && P (2 * p * B + 2 * 0 * h + i - h) = false) as ->.
        { destruct (Nat.leb_spec h (2 * p * B + 2 * 0 * h + i)); auto. rewrite andb_true_l.
          destruct B as [|B']; [lia|]. unfold P.
          replace (2 * p * S B' + 2 * 0 * h + i - h) with (2 * p * B' + (2 * p - h + i)) by nia.
          rewrite mod_block by lia.
          destruct (Nat.ltb_spec (2 * p - h + i + h) (2 * p)); [lia|].
          rewrite andb_false_r. auto. }
        rewrite HEv by lia.
        destruct (Nat.leb_spec (A1 + A2) 0), (Nat.leb_spec (A1 + B1 + (A2 + B2)) (2 * 0)); auto; lia.
      * assert (2 * p * B + 2 * S m * h + i - h = 2 * p * B + (2 * m + 1) * h + i) as Ey by nia.
        rewrite Ey.
        assert (P (2 * p * B + (2 * m + 1) * h + i) = true) as ->.
        { unfold P. rewrite <- Nat.add_assoc, MB, Mo, mod_block, Ln by nia.
          destruct (Nat.leb_spec h (h + i)); [|lia].
          destruct (Nat.ltb_spec ((2 * m + 1) * h + i + h) (2 * p)); [auto|nia]. }
        destruct (Nat.leb_spec h (2 * p * B + 2 * S m * h + i)); [|nia]. rewrite andb_true_l. cbv iota.
        rewrite HOd, HEv by nia.
        destruct (Nat.leb_spec (B1 + B2) m), (Nat.leb_spec (A1 + A2) (S m)),
          (Nat.leb_spec (A1 + B1 + (A2 + B2)) (2 * S m)); auto; lia.
    + destruct (Nat.lt_ge_cases ((2 * m + 1) * h + i + h) (2 * p)) as [Hin|Hout].
      * assert (P (2 * p * B + (2 * m + 1) * h + i) = true) as ->.
        { unfold P. rewrite <- Nat.add_assoc, MB, Mo, mod_block, Ln by nia.
          destruct (Nat.leb_spec h (h + i)); [|lia].
          destruct (Nat.ltb_spec ((2 * m + 1) * h + i + h) (2 * p)); [auto|nia]. }
        replace (2 * p * B + (2 * m + 1) * h + i + h) with (2 * p * B + 2 * (m + 1) * h + i) by lia.
        rewrite HOd, HEv by nia.
        destruct (Nat.leb_spec (B1 + B2) m), (Nat.leb_spec (A1 + A2) (m + 1)),
          (Nat.leb_spec (A1 + B1 + (A2 + B2)) (2 * m + 1)); auto; lia.
      * assert (P (2 * p * B + (2 * m + 1) * h + i) = false) as ->.
        { unfold P. rewrite <- Nat.add_assoc, MB, Mo, mod_block by nia.
          destruct (Nat.ltb_spec ((2 * m + 1) * h + i + h) (2 * p)); [lia|].
          rewrite andb_false_r. auto. }
        replace (2 * p * B + (2 * m + 1) * h + i - h) with (2 * p * B + 2 * m * h + i) by nia.
        assert (P (2 * p * B + 2 * m * h + i) = false) as ->.
        { unfold P. rewrite <- Nat.add_assoc, MB, Me. destruct (Nat.leb_spec h i); auto; lia. }
        rewrite andb_false_r. rewrite HOd by nia.
        assert (2 * G <= m + 1) by nia.
        destruct (Nat.leb_spec (B1 + B2) m), (Nat.leb_spec (A1 + B1 + (A2 + B2)) (2 * m + 1)); auto; lia.
Qed.

Lemma inv_done : forall v, inv 1 v -> blocks (2 * p) v.
Proof.
  intros v HI B HB. destruct (HI B) as (a & b & Ha & Hb & H); [nia|].
  exists (a + b). split; [lia|]. intros x Hx.
  specialize (H 0 x a b). replace (2 * p * B + x * 1 + 0) with (2 * p * B + x) in H by lia.
  apply H; unfold cz; lia.
Qed.
End Merge.

Lemma oe_k_loop : forall n s R, n = 2 * 2 ^ s * R -> forall u fuel, u < s -> u < fuel -> exists l,
  odd_even_merge_k fuel n (2 ^ s) (2 ^ u) = Some l /\ valid n l /\
  forall v, inv (2 ^ s) R (2 ^ S u) v -> inv (2 ^ s) R 1 (brun l v).
Proof.
  intros n s R Hn. pose proof (pow2_pos s) as Hp. induction u as [|u IH]; intros fuel Hu Hf.
  - destruct fuel as [|fuel]; [lia|]. cbn [odd_even_merge_k]. change (2 ^ 0) with 1. simpl (1 =? 0). cbv iota.
    destruct (oe_next n (2 ^ s) R Hp Hn 1 (2 ^ (s - 1))) as (l & E & HV & HS); [lia| |].
    { rewrite Nat.mul_1_r, <- Nat.pow_succ_r'. f_equal. lia. }
    rewrite E. exists (l ++ []). split; [destruct fuel; reflexivity|]. rewrite app_nil_r. split; auto.
  - destruct fuel as [|fuel]; [lia|]. cbn [odd_even_merge_k].
    pose proof (pow2_pos (S u)). destruct (Nat.eqb_spec (2 ^ S u) 0); [lia|].
    destruct (oe_next n (2 ^ s) R Hp Hn (2 ^ S u) (2 ^ (s - 2 - u))) as (l & E & HV & HS); [lia| |].
    { rewrite <- Nat.pow_succ_r', <- Nat.pow_add_r. f_equal. lia. }
    destruct (IH fuel) as (l2 & E2 & HV2 & HS2); [lia|lia|].
    rewrite E, div_pow2_half, E2. exists (l ++ l2). split; auto. split; [apply valid_app; auto|].
    intros v Hv. rewrite brun_app. apply HS2. apply HS. rewrite <- Nat.pow_succ_r'. auto.
Qed.

Lemma oe_k_all : forall n s R, n = 2 * 2 ^ s * R -> forall fuel, s < fuel -> exists l,
  odd_even_merge_k fuel n (2 ^ s) (2 ^ s) = Some l /\ valid n l /\
  forall v, blocks n (2 ^ s) v -> blocks n (2 * 2 ^ s) (brun l v).
Proof.
  intros n s R Hn fuel Hf. pose proof (pow2_pos s) as Hp.
  destruct (oe_first n (2 ^ s) R Hp Hn) as (l & E & HV & HS).
  destruct fuel as [|fuel]; [lia|]. cbn [odd_even_merge_k].
  destruct (Nat.eqb_spec (2 ^ s) 0); [lia|]. rewrite E.
  destruct s as [|s].
  - exists (l ++ []). split; [destruct fuel; reflexivity|]. rewrite app_nil_r. split; auto.
    intros v Hv. apply (inv_done n (2 ^ 0) R); auto. 
  - destruct (oe_k_loop n (S s) R Hn s fuel) as (l2 & E2 & HV2 & HS2); [lia|lia|].
    rewrite div_pow2_half, E2. exists (l ++ l2). split; auto. split; [apply valid_app; auto|].
    intros v Hv. rewrite brun_app. apply (inv_done n (2 ^ S s) R); auto.
Qed.

Lemma pow2_gt : forall s, s < 2 ^ s.
Proof. intros. apply Nat.pow_gt_lin_r. lia. Qed.

Lemma oe_p_loop : forall t i fuel, i <= t -> i <= fuel -> exists l,
  odd_even_merge_p fuel (2 ^ t) (2 ^ (t - i)) = Some l /\ valid (2 ^ t) l /\
  forall v, blocks (2 ^ t) (2 ^ (t - i)) v -> blocks (2 ^ t) (2 ^ t) (brun l v).
Proof.
  intros t. induction i as [|i IH]; intros fuel Hi Hf.
  - rewrite Nat.sub_0_r. exists [].
    destruct fuel; cbn [odd_even_merge_p]; rewrite Nat.ltb_irrefl; simpl negb; cbv iota;
      (split; [auto|split; [constructor|auto]]).
  - destruct fuel as [|fuel]; [lia|]. cbn [odd_even_merge_p].
    assert (2 ^ (t - S i) < 2 ^ t) as Hlt by (apply Nat.pow_lt_mono_r; lia).
    destruct (Nat.ltb_spec (2 ^ (t - S i)) (2 ^ t)); [|lia]. cbn [negb]. cbv iota.
    destruct (oe_k_all (2 ^ t) (t - S i) (2 ^ i)) with (fuel := S (2 ^ (t - S i))) as (l & E & HV & HS).
    { rewrite <- Nat.pow_succ_r', <- Nat.pow_add_r. f_equal. lia. }
    { pose proof (pow2_gt (t - S i)). lia. }
    assert (2 ^ (t - S i) * 2 = 2 ^ (t - i)) as E1.
    { rewrite Nat.mul_comm, <- Nat.pow_succ_r'. f_equal. lia. }
    destruct (IH fuel) as (l2 & E2 & HV2 & HS2); [lia|lia|].
    rewrite E, E1, E2. exists (l ++ l2). split; auto. split; [apply valid_app; auto|].
    intros v Hv. rewrite brun_app. apply HS2. rewrite <- E1, Nat.mul_comm. auto.
Qed.

Theorem odd_even_merge_ok : forall t, exists l,
  odd_even_merge_index_pairs (2 ^ t) = Some l /\ valid (2 ^ t) l /\ sorts01 (2 ^ t) l.
Proof.
  intros t. unfold odd_even_merge_index_pairs. destruct (Nat.ltb_spec (2 ^ t) 2).
  - exists []. split; auto. split; [constructor|]. intros v i j. lia.
  - destruct (oe_p_loop t t (2 ^ t)) as (l & E & HV & HS); auto.
    { pose proof (pow2_gt t). lia. }
    rewrite Nat.sub_diag in E, HS. change (2 ^ 0) with 1 in E, HS.
    exists l. split; auto. split; auto. intros v i j Hij Hj.
    destruct (HS v) with (B := 0) as (z & Hz & Hs); [|lia|].
    + intros B HB. exists (if v (1 * B + 0) then 0 else 1). split; [destruct (v _); lia|].
      intros x Hx. assert (x = 0) by lia. subst x. destruct (v (1 * B + 0)); auto.
    + specialize (Hs i) as Hi. specialize (Hs j) as Hj'. rewrite Nat.mul_0_r, Nat.add_0_l in Hi, Hj'.
      rewrite Hi, Hj' by lia. destruct (Nat.leb_spec z i), (Nat.leb_spec z j); auto; lia.
Qed.
