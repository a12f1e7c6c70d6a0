From Coq Require Import List Arith Lia Permutation Bool ZArith Zify ZifyNat.
From Verif Require Import Lang.Mem Proofs.Wp Model.Rotate Proofs.Rotate.
Import ListNotations.

(** * The arithmetic of the cycles *)
Section Arith.
Variables (m1 m2 : nat).
Hypotheses (H1 : 1 <= m1) (H2 : 1 <= m2).
Notation n := (m1 + m2).
Notation g := (Nat.gcd m1 m2).
Definition st (p k : nat) : nat := (p + k * m1) mod n.

Lemma g_m1 : exists a, m1 = a * g.
Proof. destruct (Nat.gcd_divide_l m1 m2) as (a & Ha). eauto. Qed.
Lemma g_m2 : exists a, m2 = a * g.
Proof. destruct (Nat.gcd_divide_r m1 m2) as (a & Ha). eauto. Qed.
Lemma g_pos : 1 <= g.
Proof. destruct g_m1 as (a & Ha). destruct g eqn:E; lia. Qed.

Definition q : nat := n / g.
Lemma q_spec : n = q * g.
Proof.
  unfold q. destruct g_m1 as (a & Ha). destruct g_m2 as (b & Hb).
  pose proof g_pos. replace (m1 + m2) with ((a + b) * g) by lia.
  rewrite Nat.div_mul by lia. reflexivity.
Qed.
Lemma g_le_m1 : g <= m1.
Proof. destruct g_m1 as (a & Ha). pose proof g_pos. destruct a; [simpl in Ha; lia|]. rewrite Ha at 2. nia. Qed.
Lemma g_le_m2 : g <= m2.
Proof. destruct g_m2 as (a & Ha). pose proof g_pos. destruct a; [simpl in Ha; lia|]. rewrite Ha at 2. nia. Qed.
Lemma q_ge2 : 2 <= q.
Proof. pose proof q_spec. pose proof g_le_m1. pose proof g_pos. destruct q as [|[|]]; lia. Qed.

Lemma st_succ : forall p k, st p (S k) = (st p k + m1) mod n.
Proof.
  intros. unfold st. rewrite Nat.add_mod_idemp_l by lia. f_equal. lia.
Qed.
Lemma st_lt : forall p k, st p k < n.
Proof. intros. apply Nat.mod_upper_bound. lia. Qed.
Lemma st_0 : forall p, p < n -> st p 0 = p.
Proof. intros. unfold st. rewrite Nat.mul_0_l, Nat.add_0_r. now apply Nat.mod_small. Qed.

Lemma q_m1 : exists a, q * m1 = a * n.
Proof.
  destruct g_m1 as (a & Ha). pose proof q_spec as Hq. exists a.
  transitivity (q * (a * g)); [f_equal; auto|]. rewrite Hq. ring.
Qed.

Lemma st_q : forall p, st p q = p mod n.
Proof.
  intros. unfold st. destruct q_m1 as (a & Ha). rewrite Ha.
  rewrite Nat.mod_add by lia. reflexivity.
Qed.

Lemma st_period : forall p k, st p (q + k) = st p k.
Proof.
  intros p k. unfold st. destruct q_m1 as (a & Ha).
  rewrite Nat.mul_add_distr_r, Ha.
  replace (p + (a * n + k * m1)) with (p + k * m1 + a * n) by ring.
  rewrite Nat.mod_add by lia. reflexivity.
Qed.
Lemma st_periods : forall c p k, st p (c * q + k) = st p k.
Proof.
  induction c; intros; simpl; auto. rewrite <- Nat.add_assoc, st_period. apply IHc.
Qed.

Lemma st_inj : forall p j k, j < k -> st p j = st p k -> exists c, k - j = c * q.
Proof.
  intros p j k Hjk E. unfold st in E.
  assert (exists c, (k - j) * m1 = c * n) as (c & Hc).
  { pose proof (Nat.div_mod (p + j * m1) n ltac:(lia)) as D1.
    pose proof (Nat.div_mod (p + k * m1) n ltac:(lia)) as D2.
    rewrite E in D1.
    exists ((p + k * m1) / n - (p + j * m1) / n).
    rewrite !Nat.mul_sub_distr_r. nia. }
  destruct g_m1 as (a & Ha). pose proof q_spec as Hq. pose proof g_pos as Hg.
  assert ((k - j) * a = c * q) as Hc2.
  { apply (Nat.mul_cancel_r _ _ g); [lia|]. rewrite <- !Nat.mul_assoc. rewrite <- Hq, <- Ha. auto. }
  assert (Nat.gcd a q = 1) as HG.
  { assert (Nat.gcd m1 n = g) as HE.
    { replace (m1 + m2) with (m2 + 1 * m1) by lia. rewrite Nat.gcd_add_mult_diag_r. reflexivity. }
    rewrite Ha in HE at 1. rewrite Hq in HE.
    rewrite Nat.gcd_mul_mono_r in HE.
    assert (Nat.gcd a q * g = 1 * g) by lia.
    apply Nat.mul_cancel_r in H; lia. }
  assert (Nat.divide q (a * (k - j))) as HD. { exists c. lia. }
  rewrite Nat.gcd_comm in HG.
  apply Nat.gauss in HD; auto.
Qed.

Lemma st_inj_lt : forall p j k, j < k -> k < q -> st p j <> st p k.
Proof.
  intros p j k Hj Hk E. destruct (st_inj p j k Hj E) as (c & Hc).
  destruct c; [lia|]. nia.
Qed.

Lemma st_mod : forall p k, p < g -> st p k mod g = p.
Proof.
  intros p k Hp. unfold st. destruct g_m1 as (a & Ha). pose proof q_spec as Hq. pose proof g_pos as Hg.
  pose proof (Nat.div_mod (p + k * m1) n ltac:(lia)) as D.
  set (r := (p + k * m1) mod n) in *. set (d := (p + k * m1) / n) in *.
  assert (p + k * a * g = d * q * g + r) as E.
  { rewrite Hq in D. rewrite Ha in D at 1. lia. }
  assert ((p + k * a * g) mod g = (r + d * q * g) mod g) as E2 by (f_equal; lia).
  rewrite !Nat.mod_add in E2 by lia. rewrite (Nat.mod_small p) in E2; lia.
Qed.

Lemma st_cover : forall p i, p < g -> i < n -> i mod g = p -> exists j, j < q /\ st p j = i.
Proof.
  intros p i Hp Hi Hm. pose proof g_pos as Hg. pose proof q_ge2 as Hq2.
  destruct (Nat.gcd_bezout_pos m1 m2 ltac:(lia)) as (a & b & Hab).
  pose proof (Nat.div_mod i g ltac:(lia)) as Di. rewrite Hm in Di. set (c := i / g) in *.
  (* a * m1 = g + b * m2; add b * m1 on both sides to get a multiple of n *)
  assert (st p (c * (a + b)) = i) as E.
  { unfold st. replace (p + c * (a + b) * m1) with (i + c * b * n).
    - rewrite Nat.mod_add by lia. now apply Nat.mod_small.
    - rewrite Di. nia. }
  exists ((c * (a + b)) mod q). split. { apply Nat.mod_upper_bound. lia. }
  rewrite <- E. rewrite (Nat.div_mod (c * (a + b)) q) at 2 by lia.
  rewrite (Nat.mul_comm q). now rewrite st_periods.
Qed.
End Arith.

Section RotateGcd.
Context {A : Type}.
Implicit Types pre post : mem A.

Lemma gcd_wp : forall x y (m : mem A) (Q : nat -> mem A -> Prop), 1 <= y ->
  Q (Nat.gcd x y) m -> wp (gcd x y) Q m.
Proof.
  intros x y m Q Hy HQ. unfold gcd. destruct (Nat.eqb_spec y 0); [lia|].
  apply wp_loop' with
    (I := fun '(x', y') m' => m' = m /\ 1 <= y' /\ Nat.gcd x' y' = Nat.gcd x y)
    (mu := fun '(x', y') => y').
  - auto.
  - lia.
  - intros [x' y'] m' (-> & Hy' & E).
    pose proof (Nat.mod_upper_bound x' y' ltac:(lia)).
    assert (Nat.gcd y' (x' mod y') = Nat.gcd x' y') as E2.
    { rewrite (Nat.gcd_comm y'), Nat.gcd_mod by lia. apply Nat.gcd_comm. }
    destruct (Nat.eqb_spec (x' mod y') 0) as [E1|E1]; apply wp_ret.
    + rewrite E1, Nat.gcd_0_r in E2. rewrite E2, E. auto.
    + split; [|lia]. cj; auto; try lia.
Qed.

Lemma rotate_cycle_wp : forall f m1 m2 p (m0 : mem A), 1 <= m1 -> 1 <= m2 -> p < Nat.gcd m1 m2 ->
  full f (f + (m1 + m2)) m0 ->
  wp (rotate_cycle f (f + (m1 + m2)) m1 (f + p)) (fun _ m' =>
     same_out f (f + (m1 + m2)) m0 m' /\
     forall i, i < m1 + m2 -> nth_error m' (f + i) =
       if i mod Nat.gcd m1 m2 =? p then nth_error m0 (f + (i + m1) mod (m1 + m2)) else nth_error m0 (f + i)) m0.
Proof.
  intros f m1 m2 p m0 H1 H2 Hp Hf. unfold rotate_cycle.
  set (n := m1 + m2) in *.
  pose proof (g_le_m1 m1 m2 H1 H2). pose proof (g_le_m2 m1 m2 H1 H2).
  pose proof (q_ge2 m1 m2 H1 H2) as Hq2.
  assert (q m1 m2 <= n) as Hqn.
  { unfold n. rewrite (q_spec m1 m2 H1 H2). pose proof (g_pos m1 m2 H1). nia. }
  set (qq := q m1 m2) in *.
  assert (p < n) as Hpn by lia.
  destruct (proj2 Hf (f + p) ltac:(lia)) as (t & Ht).
  assert (forall k, st m1 m2 p k < n) as Hst by (intros; apply st_lt; lia).
  set (s := st m1 m2 p) in *.
  assert (s 0 = p) as Hs0 by (apply st_0; lia).
  assert (forall k, s (S k) = (s k + m1) mod n) as HsS by (intros; apply st_succ; lia).
  assert (forall j k, j < k -> k < qq -> s j <> s k) as Hinj by (intros; apply st_inj_lt; lia).
  assert (s qq = p) as Hsq.
  { unfold s, qq. rewrite st_q by lia. apply Nat.mod_small; lia. }
  apply wp_bind. eapply wp_take_hole; eauto.
  apply wp_bind. apply wp_loop_k with (k := qq - 2)
    (I := fun c '(p1, p2) m => exists k V, S k + c = qq - 1 /\ p1 = f + s k /\ p2 = f + s (S k) /\
       m = upd (f + s k) Moved V /\ nth_error V (f + s k) = Some (Val t) /\
       same_out f (f + n) m0 V /\
       (forall j, j < k -> nth_error V (f + s j) = nth_error m0 (f + s (S j))) /\
       (forall i, i < n -> (forall j, j <= k -> s j <> i) -> nth_error V (f + i) = nth_error m0 (f + i))).
  - exists 0, m0. rewrite Hs0. cj; auto using same_out_refl; try lia.
    rewrite HsS, Hs0. rewrite Nat.mod_small; lia.
  - lia.
  - intros c [p1 p2] m (k & V & Hk & -> & -> & -> & HVt & HSO & Hdone & Hrest).
    destruct (proj2 Hf (f + s (S k))) as (y & Hy). { specialize (Hst (S k)). lia. }
    assert (s k <> s (S k)) as Hne by (apply Hinj; lia).
    assert (nth_error V (f + s (S k)) = Some (Val y)) as HVy.
    { rewrite Hrest; auto. intros j Hj. apply Hinj; lia. }
    apply wp_bind. eapply wp_move_hole; eauto; [lia|].
    set (V' := upd (f + s k) (Val y) (upd (f + s (S k)) (Val t) V)).
    replace (f + n - (f + s (S k))) with (n - s (S k)) by lia.
    assert ((if m1 <? n - s (S k) then f + s (S k) + m1 else f + (m1 - (n - s (S k)))) = f + s (S (S k))) as ->.
    { rewrite (HsS (S k)). specialize (Hst (S k)). set (x := s (S k)) in *. clearbody x.
      destruct (Nat.ltb_spec m1 (n - x)).
      - rewrite Nat.mod_small; lia.
      - f_equal. replace (x + m1) with (x + m1 - n + 1 * n) by lia.
        rewrite Nat.mod_add by lia. rewrite Nat.mod_small; lia. }
    assert (nth_error V' (f + s (S k)) = Some (Val t)) as HV't.
    { unfold V'. rewrite nth_upd_ne by lia. apply nth_upd_eq. eapply nth_lt; eauto. }
    assert (same_out f (f + n) m0 V') as HSO'.
    { eapply same_out_trans; [exact HSO|].
      eapply same_out_trans; apply same_out_upd.
      - specialize (Hst (S k)); lia.
      - specialize (Hst k); lia. }
    assert (forall j, j < S k -> nth_error V' (f + s j) = nth_error m0 (f + s (S j))) as Hdone'.
    { intros j Hj. unfold V'. destruct (Nat.eq_dec j k) as [->|].
      - rewrite nth_upd_eq by (rewrite upd_length; eapply nth_lt; eauto). auto.
      - assert (s j <> s k) by (apply Hinj; lia). assert (s j <> s (S k)) by (apply Hinj; lia).
        rewrite !nth_upd_ne by lia. apply Hdone. lia. }
    assert (forall i, i < n -> (forall j, j <= S k -> s j <> i) -> nth_error V' (f + i) = nth_error m0 (f + i)) as Hrest'.
    { intros i Hi Hj. pose proof (Hj k ltac:(lia)). pose proof (Hj (S k) ltac:(lia)).
      unfold V'. rewrite !nth_upd_ne by lia. apply Hrest; auto. }
    destruct (Nat.eqb_spec (f + s (S (S k))) (f + p)) as [E|E]; apply wp_ret.
    + assert (S (S k) = qq) as EK.
      { destruct (Nat.eq_dec (S (S k)) qq); auto. exfalso.
        apply (Hinj 0 (S (S k))); lia. }
      eapply wp_put_hole; eauto. split; auto.
      intros i Hi. destruct (Nat.eqb_spec (i mod Nat.gcd m1 m2) p) as [Em|Em].
      * destruct (st_cover m1 m2 H1 H2 p i Hp Hi Em) as (j & Hj & Ej).
        change (s j = i) in Ej. change (j < qq) in Hj. subst i.
        destruct (Nat.eq_dec j (S k)) as [->|].
        -- rewrite HV't. rewrite <- HsS, EK, Hsq. auto.
        -- rewrite Hdone' by lia. now rewrite HsS.
      * apply Hrest'; auto. intros j Hj E2. apply Em. rewrite <- E2. apply st_mod; auto.
    + exists (c - 1).
      assert (c <> 0). { intros ->. apply E. f_equal. replace (S (S k)) with qq by lia. auto. }
      split; [lia|]. exists (S k), V'. cj; auto; lia.
Qed.

Lemma rotate_gcd_wp : forall p r pre post f mi l (Q : nat -> mem A -> Prop), p <> [] -> r <> [] ->
  f = length pre -> mi = f + length p -> l = mi + length r ->
  Q (f + length r) (pre ++ map Val (r ++ p) ++ post) ->
  wp (rotate_gcd f mi l) Q (pre ++ map Val (p ++ r) ++ post).
Proof.
  intros p r pre post f mi l Q Hp Hr -> -> -> HQ. unfold rotate_gcd.
  replace (length pre + length p - length pre) with (length p) by lia.
  replace (length pre + length p + length r - (length pre + length p)) with (length r) by lia.
  assert (1 <= length p) as H1 by (destruct p; [congruence|simpl; lia]).
  assert (1 <= length r) as H2 by (destruct r; [congruence|simpl; lia]).
  destruct (Nat.eqb_spec (length p) (length r)) as [E|E].
  - apply wp_bind. reshape (pre ++ map Val p ++ [] ++ map Val r ++ post).
    apply swap_ranges_wp; auto; try (lens; fail).
    apply wp_ret. rewrite E. simpl. rewrite map_app, <- app_assoc in HQ. auto.
  - apply wp_bind. apply gcd_wp; auto.
    pose proof (g_pos (length p) (length r) H1) as Hg.
    set (g := Nat.gcd (length p) (length r)) in *.
    set (n := length p + length r).
    set (m0 := pre ++ map Val (p ++ r) ++ post).
    assert (full (length pre) (length pre + n) m0) as Hf.
    { unfold m0. replace n with (length (p ++ r)) by apply app_length. apply full_init. }
    apply wp_bind.
    apply wp_loop' with
      (I := fun it m => exists k, it = length pre + k /\ k <= g /\
         same_out (length pre) (length pre + n) m0 m /\
         forall i, i < n -> nth_error m (length pre + i) =
           if k <=? i mod g then nth_error m0 (length pre + (i + length p) mod n) else nth_error m0 (length pre + i))
      (mu := fun it => it - length pre).
    + exists g. cj; auto using same_out_refl. intros i Hi.
      destruct (Nat.leb_spec g (i mod g)); auto.
      pose proof (Nat.mod_upper_bound i g ltac:(lia)). lia.
    + lia.
    + intros it m (k & -> & Hk & HSO & HV).
      destruct (Nat.eqb_spec (length pre + k) (length pre)) as [E0|E0].
      * apply wp_ret. apply wp_ret.
        assert (k = 0) by lia. subst k.
        destruct (mem_decomp (length pre) (length pre + n) m) as (pr & mid & po & -> & Epr & Emid).
        { lia. } { destruct HSO as [-> _]. unfold m0. destruct Hf; auto. }
        pose proof HSO as HSO2. unfold m0 in HSO.
        assert (n = length (map (@Val A) (p ++ r))) as En by lens.
        rewrite En in HSO at 1. apply same_out_decomp in HSO as (mid' & Eq & Lm).
        rewrite Eq in *. clear Eq.
        replace (map Val (r ++ p)) with mid' in HQ; auto.
        apply nth_ext. intros i.
        destruct (Nat.lt_ge_cases i n) as [Hi|Hi].
        2:{ rewrite !(proj2 (nth_error_None _ _)); auto; lens. }
        specialize (HV i Hi). simpl in HV.
        rewrite nth_error_app2 in HV by lia.
        rewrite nth_error_app1 in HV by lens.
        replace (length pre + i - length pre) with i in HV by lia.
        rewrite HV. unfold m0.
        pose proof (Nat.mod_upper_bound (i + length p) n ltac:(lia)).
        rewrite nth_pre_map_post by lens.
        rewrite nth_error_map. f_equal.
        destruct (Nat.lt_ge_cases i (length r)) as [Hr'|Hr'].
        -- rewrite Nat.mod_small by lia. rewrite nth_error_app2 by lia.
           rewrite nth_error_app1 by lia. f_equal. lia.
        -- replace (i + length p) with (i - length r + 1 * n) by lia.
           rewrite Nat.mod_add, Nat.mod_small by lia.
           rewrite nth_error_app1 by lia. rewrite nth_error_app2 by lia. reflexivity.
      * replace (length pre + k - 1) with (length pre + (k - 1)) by lia.
        assert (full (length pre) (length pre + n) m) as Hfm.
        { destruct HSO as [L _]. split; [rewrite L; destruct Hf; auto|].
          intros x Hx. replace x with (length pre + (x - length pre)) by lia.
          rewrite HV by lia. destruct (k <=? (x - length pre) mod g).
          - apply Hf. pose proof (Nat.mod_upper_bound (x - length pre + length p) n ltac:(lia)). lia.
          - apply Hf. lia. }
        apply wp_bind. eapply wp_mono.
        { replace (length pre + length p + length r) with (length pre + (length p + length r)) by lia.
          apply (rotate_cycle_wp (length pre) (length p) (length r) (k - 1)); auto. fold g. lia. }
        intros _ m' [HSO' HV']. apply wp_ret. split; [|lia].
        exists (k - 1). cj; auto; try lia.
        { eapply same_out_trans; eauto. }
        intros i Hi. rewrite HV' by auto. fold g. fold n.
        pose proof (Nat.mod_upper_bound (i + length p) n ltac:(lia)).
        assert (((i + length p) mod n) mod g = i mod g) as Emod.
        { destruct (g_m1 (length p) (length r)) as (a & Ha). fold g in Ha.
          pose proof (q_spec (length p) (length r) H1) as Hq. fold g n in Hq.
          set (qq := q (length p) (length r)) in *. clearbody qq.
          pose proof (Nat.div_mod (i + length p) n ltac:(lia)) as D.
          set (x := (i + length p) mod n) in *. set (d := (i + length p) / n) in *.
          assert (x + d * qq * g = i + a * g) by (rewrite <- Ha, <- Nat.mul_assoc, <- Hq; lia).
          rewrite <- (Nat.mod_add x (d * qq) g) by lia. rewrite H0. apply Nat.mod_add. lia. }
        destruct (Nat.eqb_spec (i mod g) (k - 1)) as [E1|E1].
        -- rewrite HV by lia. rewrite Emod, E1.
           destruct (Nat.leb_spec k (k - 1)); [lia|].
           destruct (Nat.leb_spec (k - 1) (k - 1)); [auto|lia].
        -- rewrite HV by lia.
           destruct (Nat.leb_spec k (i mod g)); destruct (Nat.leb_spec (k - 1) (i mod g)); auto; lia.
Qed.

Lemma rotate_wp : forall cat triv p r pre post f mi l (Q : nat -> mem A -> Prop),
  f = length pre -> mi = f + length p -> l = mi + length r ->
  Q (f + length r) (pre ++ map Val (r ++ p) ++ post) ->
  wp (rotate cat triv f mi l) Q (pre ++ map Val (p ++ r) ++ post).
Proof.
  intros cat triv p r pre post f mi l Q -> -> -> HQ. unfold rotate.
  destruct (Nat.eqb_spec (length pre) (length pre + length p)) as [E|E].
  { assert (p = []) as -> by (destruct p; auto; simpl in *; lia).
    apply wp_ret. simpl in *. rewrite app_nil_r in HQ. rewrite Nat.add_0_r. auto. }
  destruct (Nat.eqb_spec (length pre + length p) (length pre + length p + length r)) as [E2|E2].
  { assert (r = []) as -> by (destruct r; auto; simpl in *; lia).
    apply wp_ret. simpl in *. rewrite app_nil_r. rewrite Nat.add_0_r in HQ. auto. }
  assert (p <> []) as Hp by (intros ->; simpl in *; lia).
  assert (r <> []) as Hr by (intros ->; simpl in *; lia).
  assert (wp (rotate_forward (length pre) (length pre + length p) (length pre + length p + length r)) Q
    (pre ++ map Val (p ++ r) ++ post)) as HF by (eapply rotate_forward_wp; eauto).
  assert (S (length pre) = length pre + length p ->
     wp (rotate_left (length pre) (length pre + length p + length r)) Q (pre ++ map Val (p ++ r) ++ post)) as HLf.
  { intros E3. destruct p as [|x [|? ?]]; try (simpl in *; lia).
    simpl app. apply rotate_left_wp; auto. lens. }
  assert (S (length pre + length p) = length pre + length p + length r ->
     wp (rotate_right (length pre) (length pre + length p + length r)) Q (pre ++ map Val (p ++ r) ++ post)) as HRt.
  { intros E3. destruct r as [|x [|? ?]]; try (simpl in *; lia).
    apply rotate_right_wp; auto. lens. }
  assert (wp (rotate_gcd (length pre) (length pre + length p) (length pre + length p + length r)) Q
    (pre ++ map Val (p ++ r) ++ post)) as HG by (eapply rotate_gcd_wp; eauto).
  unfold rotate_impl.
  destruct cat, triv; unfold andb; cbv iota; auto;
    repeat match goal with |- context [if ?a =? ?b then _ else _] => destruct (Nat.eqb_spec a b) end; auto.
Qed.
End RotateGcd.
