(** integer_spread_sorter. *)
From Coq Require Import List Arith ZArith Lia Permutation Bool.
From Verif Require Import Spec.Order Lang.Mem Spec.Sorts Spec.Verge Proofs.Wp Proofs.OrderLib Model.Basic Proofs.Basic Model.Indirect Proofs.Indirect Proofs.Search Proofs.Regions Proofs.Bins
  Model.Pdq Proofs.Pdq Model.Counting Proofs.Counting Model.Ska Proofs.SkaLib Proofs.Ska Proofs.SkaKeys Proofs.SpinTrap Model.Spread Proofs.SpreadArith Proofs.SpreadBins.
Import ListNotations.
Local Open Scope nat_scope.
Local Arguments nth_error : simpl never.
Local Arguments upd : simpl never.
Local Arguments Nat.leb : simpl never.
Local Arguments Nat.ltb : simpl never.
Local Arguments Nat.eqb : simpl never.
Local Arguments Nat.sub : simpl never.
Local Arguments loop : simpl never.
Local Arguments Z.pow : simpl never.
Local Opaque seq.

Section Spread.
Context {A : Type} (t : int_type) (proj : A -> Z) (branchless : bool).
Local Notation lt := (by_proj Z.ltb proj).
Implicit Types (m : mem A).
Hypothesis HT : In (bits t) [8; 16; 32; 64]%Z.

Lemma sorted_keys : forall xs, (forall i j x y, i < j -> nth_error xs i = Some x -> nth_error xs j = Some y -> (proj x <= proj y)%Z) -> sorted lt xs.
Proof. intros xs H i j x y Hij Hx Hy. unfold by_proj. apply Z.ltb_ge. eapply H; eauto. Qed.

Lemma extremes_wp : forall xs m f, 2 <= length xs -> seg m f xs ->
  wp (is_sorted_or_find_extremes proj f (f + length xs)) (fun r m' => m' = m /\ match r with
    | None => sorted lt xs
    | Some (mx, mn) => exists i j x y, mx = f + i /\ mn = f + j /\ nth_error xs i = Some x /\ nth_error xs j = Some y /\ forall z, In z xs -> (proj y <= proj z <= proj x)%Z
    end) m.
Proof.
  intros xs m f HL HS. unfold is_sorted_or_find_extremes. wstep.
  apply wp_loop' with (I := fun cur m' => m' = m /\ exists c, cur = f + c /\ c < length xs - 1 /\
     forall i j x y, i <= j <= c -> nth_error xs i = Some x -> nth_error xs j = Some y -> (proj x <= proj y)%Z) (mu := fun cur => f + length xs - cur).
  - split; auto. exists 0. cj; try lia. intros i j x y Hij Hx Hy. replace i with 0 in Hx by lia. replace j with 0 in Hy by lia. assert (x = y) by congruence. subst. lia.
  - lia.
  - intros cur m' (-> & c & -> & Hc & HO). destruct (nth_some _ xs c) as (x & Hx); [lia|]. destruct (nth_some _ xs (S c)) as (y & Hy); [lia|].
    wstep. eapply wp_less_at; [replace (S (f + c)) with (f + S c) by lia; eapply seg_get; eauto|eapply seg_get; eauto|]. unfold by_proj. destruct (Z.ltb_spec (proj y) (proj x)) as [H|H].
    + apply wp_ret. wstep.
      apply wp_loop' with (I := fun '(cur, mx, mn) m' => m' = m /\ exists c' i j x y, cur = f + c' /\ c <= c' < length xs /\ mx = f + i /\ mn = f + j /\ nth_error xs i = Some x /\ nth_error xs j = Some y /\
         forall k z, k <= c' -> nth_error xs k = Some z -> (proj y <= proj z <= proj x)%Z) (mu := fun '(cur, _, _) => f + length xs - cur).
      * split; auto. destruct (nth_some _ xs 0) as (x0 & H0); [lia|]. exists c, c, 0, x, x0. cj; auto; try lia. intros k z Hk Hz. split; [eapply (HO 0 k)|eapply (HO k c)]; eauto; lia.
      * lia.
      * intros [[cur mx] mn] m' (-> & c' & i & j & x' & y' & -> & Hc' & -> & -> & Hi & Hj & HB). destruct (Nat.ltb_spec (S (f + c')) (f + length xs)) as [Hl|Hl].
        -- destruct (nth_some _ xs (S c')) as (z & Hz); [lia|]. assert (Mz : nth_error m (S (f + c')) = Some (Val z)). { replace (S (f + c')) with (f + S c') by lia. eapply seg_get; eauto. }
           wstep. eapply wp_less_at; [eapply seg_get; eauto|exact Mz|]. unfold by_proj. pose proof (HB j y' ) as Hj1. pose proof (HB i x') as Hi1.
           assert (Hyx : (proj y' <= proj x')%Z). { destruct (nth_some _ xs c') as (w & Hw); [lia|]. specialize (HB c' w (le_n _) Hw). lia. }
           assert (HX : forall k w, k <= S c' -> nth_error xs k = Some w -> w = z \/ (proj y' <= proj w <= proj x')%Z).
           { intros k w Hk Hw. destruct (Nat.eq_dec k (S c')) as [->|]; [left; congruence|right; apply (HB k); auto; lia]. }
           destruct (Z.ltb_spec (proj x') (proj z)).
           ++ apply wp_ret. split; [|lia]. split; auto. exists (S c'), (S c'), j, z, y'. cj; auto; try lia. intros k w Hk Hw. destruct (HX k w Hk Hw) as [->|]; lia.
           ++ wstep. eapply wp_less_at; [exact Mz|eapply seg_get; eauto|]. unfold by_proj. destruct (Z.ltb_spec (proj z) (proj y')); apply wp_ret; (split; [|lia]); (split; [reflexivity|]).
              ** exists (S c'), i, (S c'), x', z. cj; auto; try lia. intros k w Hk Hw. destruct (HX k w Hk Hw) as [->|]; lia.
              ** exists (S c'), i, j, x', y'. cj; auto; try lia. intros k w Hk Hw. destruct (HX k w Hk Hw) as [->|]; lia.
        -- apply wp_ret. apply wp_ret. split; auto. exists i, j, x', y'. cj; auto. intros z Hz. apply In_nth_error in Hz as (k & Hk). apply (HB k); auto. apply nth_lt in Hk. lia.
    + assert (HO' : forall i j a b, i <= j <= S c -> nth_error xs i = Some a -> nth_error xs j = Some b -> (proj a <= proj b)%Z).
      { intros i j a b Hij Ha Hb. destruct (Nat.eq_dec j (S c)) as [->|]; [|apply (HO i j); auto; lia]. assert (b = y) by congruence. subst b.
        destruct (Nat.eq_dec i (S c)) as [->|]. { assert (a = y) by congruence. subst. lia. } specialize (HO i c a x ltac:(lia) Ha Hx). lia. }
      destruct (Nat.eqb_spec (S (f + c)) (f + length xs - 1)) as [E|E].
      * apply wp_ret. apply wp_ret. split; auto. apply sorted_keys. intros i j a b Hij Ha Hb. apply (HO' i j); auto. apply nth_lt in Hb. lia.
      * apply wp_ret. split; [|lia]. split; auto. exists (S c). cj; try lia. exact HO'.
Qed.

(** The keys: their differences can be represented. *)
Definition close (xs : list A) : Prop := forall x y, In x xs -> In y xs -> (proj y <= proj x)%Z -> fits (promoted t) (proj x - proj y) = true.
Definition within_bits (L : Z) (xs : list A) : Prop := forall x y, In x xs -> In y xs -> (proj x - proj y < 2 ^ L)%Z.

Lemma fits_lt : forall z, fits (promoted t) z = true -> (z < 2 ^ bits (promoted t))%Z.
Proof.
  intros z H. unfold fits in H. apply andb_true_iff in H as [_ H]. apply Z.leb_le in H. unfold type_max in H. destruct (signed (promoted t)); [|lia].
  assert (2 ^ (bits (promoted t) - 1) <= 2 ^ bits (promoted t))%Z; [|lia]. apply Z.pow_le_mono_r; lia.
Qed.
Lemma promoted_bits : (32 <= bits (promoted t) <= 64)%Z.
Proof. unfold promoted. destruct (Z.ltb_spec (bits t) 32); cbn [bits int32]; [lia|]. cbn [In] in HT. lia. Qed.
Lemma fits_down : forall z z', (0 <= z' <= z)%Z -> fits (promoted t) z = true -> fits (promoted t) z' = true.
Proof.
  intros z z' Hz H. unfold fits in *. apply andb_true_iff in H as [H1 H2]. apply Z.leb_le in H1, H2. apply andb_true_iff. split; apply Z.leb_le; [|lia].
  unfold type_min. destruct (signed (promoted t)); [|lia]. assert (0 <= 2 ^ (bits (promoted t) - 1))%Z by (apply Z.pow_nonneg; lia). lia.
Qed.
Lemma real : real_type t.
Proof. unfold real_type. cbn [In] in HT. lia. Qed.

Section Step.
Variables (L : Z) (fuel : nat).
Definition sorts_wide (L : Z) (rec : nat -> nat -> list (option nat) -> nat -> M A (list (option nat))) : Prop :=
  forall xs m f c off, (1000 <= Z.of_nat (length xs))%Z -> close xs -> within_bits L xs -> seg m f xs -> off <= length c ->
    wp (rec f (f + length xs) c off) (fun c' m' => (exists ys, seg m' f ys /\ is_sorting_of lt xs ys /\ only (within f (length xs)) m m') /\
       length c <= length c' /\ firstn off c' = firstn off c) m.

Section Blocks.
Context (nb : nat) (bin : A -> nat) (xs ys : list A) (f : nat) (m0 : mem A).
Hypothesis HB : forall x, In x xs -> bin x < nb.
Hypothesis HO : forall x y, In x xs -> In y xs -> bin x < bin y -> (proj x < proj y)%Z.
Hypothesis HP : Permutation xs ys.
Hypothesis HBl : blocked bin xs ys.
Local Notation n := (length xs).
Local Notation cnt := (cnt bin xs).
Local Notation start := (start bin xs).
Local Notation reg := (region bin xs ys).

Definition sblocks (done : nat -> Prop) m : Prop := exists g, seg m f (flat_map g (seq 0 nb)) /\ only (within f n) m0 m /\
  forall p, p < nb -> Permutation (reg p) (g p) /\ (done p -> sorted lt (g p)).

Lemma sflat_len : forall g p, p <= nb -> (forall q, q < nb -> Permutation (reg q) (g q)) -> length (flat_map g (seq 0 p)) = start p.
Proof.
  intros g p Hp HG. induction p as [|p IH]; auto. rewrite seq_S, flat_map_app, app_length, IH by lia. cbn [flat_map plus]. rewrite app_nil_r, start_S, <- (Permutation_length (HG p ltac:(lia))).
  rewrite (region_length nb bin xs HB); auto. now rewrite (Permutation_length HP).
Qed.
Lemma sflat_split : forall (g : nat -> list A) p, p < nb -> flat_map g (seq 0 nb) = flat_map g (seq 0 p) ++ g p ++ flat_map g (seq (S p) (nb - S p)).
Proof.
  intros g p Hp. replace (seq 0 nb) with (seq 0 (p + S (nb - S p))) by (f_equal; lia). rewrite seq_app, flat_map_app. cbn [plus]. rewrite <- cons_seq. reflexivity.
Qed.
Lemma sreg_in : forall p x, In x (reg p) -> In x xs /\ bin x = p.
Proof.
  intros p x Hx. split; [|eapply (region_bin nb bin xs HB); eauto]. eapply Permutation_in; [symmetry; exact HP|]. apply In_nth_error in Hx as (i & Hi). apply (region_nth nb bin xs HB) in Hi as [Hi _]. eapply nth_error_In; eauto.
Qed.

(** One region is sorted. *)
Lemma sblocks_step : forall (done : nat -> Prop) p m X (c : M A X) (R : X -> Prop), p < nb -> sblocks done m ->
  (forall zs, seg m (f + start p) zs -> length zs = cnt p -> (forall z, In z zs -> In z xs /\ bin z = p) ->
     wp c (fun r m' => R r /\ exists zs', seg m' (f + start p) zs' /\ is_sorting_of lt zs zs' /\ only (within (f + start p) (length zs)) m m') m) ->
  wp c (fun r m' => R r /\ sblocks (fun q => done q \/ q = p) m') m.
Proof.
  intros done p m X c R Hp (g & HS & HOn & HG) Hc. rewrite (sflat_split g p Hp) in HS. apply seg_app in HS as [HS1 HS2]. apply seg_app in HS2 as [HS2 HS3].
  assert (HL : length (g p) = cnt p). { rewrite <- (Permutation_length (proj1 (HG p Hp))). apply (region_length nb bin xs HB); auto. now rewrite (Permutation_length HP). }
  assert (HL1 : length (flat_map g (seq 0 p)) = start p) by (apply sflat_len; [lia|intros; now apply HG]).
  rewrite HL1 in HS2, HS3. assert (HLs : start (S p) <= n). { rewrite <- (start_all nb bin xs HB). now apply start_mono. } rewrite start_S in HLs.
  eapply wp_mono; [apply (Hc (g p) HS2 HL)|].
  - intros z Hz. apply sreg_in. eapply Permutation_in; [symmetry; apply (HG p Hp)|auto].
  - cbv beta. intros r m' (HR & zs & HSz & [HPz Hsz] & HO'). split; auto. exists (fun q => if q =? p then zs else g q). split; [|split].
    + rewrite (sflat_split _ p Hp). rewrite Nat.eqb_refl.
      assert (E1 : flat_map (fun q => if q =? p then zs else g q) (seq 0 p) = flat_map g (seq 0 p)). { apply flat_map_ext_in. intros q Hq. apply in_seq in Hq. destruct (Nat.eqb_spec q p); [lia|auto]. }
      assert (E2 : flat_map (fun q => if q =? p then zs else g q) (seq (S p) (nb - S p)) = flat_map g (seq (S p) (nb - S p))). { apply flat_map_ext_in. intros q Hq. apply in_seq in Hq. destruct (Nat.eqb_spec q p); [lia|auto]. }
      rewrite E1, E2. apply seg_app. split; [|apply seg_app; split].
      * eapply seg_only; [exact HO'| |exact HS1]. unfold within. intros. lia.
      * now rewrite HL1.
      * rewrite HL1, <- (Permutation_length HPz). eapply seg_only; [exact HO'| |exact HS3]. unfold within. intros. lia.
    + eapply only_trans; [exact HOn|]. eapply only_weaken; [exact HO'|]. unfold within. intros. lia.
    + intros q Hq. destruct (HG q Hq) as [G1 G2]. destruct (Nat.eqb_spec q p) as [->|]. { split; auto. now rewrite G1. } split; auto. intros [H|H]; [auto|contradiction].
Qed.

Lemma sblocks_sorted : forall (done : nat -> Prop) m, (forall p, p < nb -> done p) -> sblocks done m -> exists zs, seg m f zs /\ is_sorting_of lt xs zs /\ only (within f n) m0 m.
Proof.
  intros done m HD (g & HS & HOn & HG). exists (flat_map g (seq 0 nb)). split; auto. split; auto.
  assert (HQ : forall q, q <= nb -> Permutation (flat_map reg (seq 0 q)) (flat_map g (seq 0 q)) /\ sorted lt (flat_map g (seq 0 q)) /\ forall x, In x (flat_map g (seq 0 q)) -> In x xs /\ bin x < q).
  { induction q as [|q IH]; intros Hq. { split; [constructor|]. split; [apply sorted_nil|]. intros x []. }
    destruct (IH ltac:(lia)) as (I1 & I2 & I3). destruct (HG q ltac:(lia)) as [G1 G2]. rewrite seq_S, !flat_map_app. cbn [flat_map plus]. rewrite !app_nil_r.
    assert (HX : forall z, In z (g q) -> In z xs /\ bin z = q). { intros z Hz. apply sreg_in. eapply Permutation_in; [symmetry; exact G1|auto]. }
    split; [now apply Permutation_app|]. split.
    - apply sorted_app. split; auto. split; [apply G2; apply HD; lia|].
      intros x y Hx Hy. destruct (I3 x Hx), (HX y Hy). unfold by_proj. apply Z.ltb_ge. assert (proj x < proj y)%Z by (apply HO; auto; lia). lia.
    - intros x Hx. apply in_app_iff in Hx as [Hx|Hx]; [destruct (I3 x Hx)|destruct (HX x Hx)]; split; auto; lia. }
  destruct (HQ nb) as (H1 & H2 & _); auto. split; auto. rewrite HP. rewrite (regions_concat nb bin xs HB ys) in H1; auto. now rewrite (Permutation_length HP).
Qed.
Lemma sblocks_init : forall (done : nat -> Prop) m, seg m f ys -> only (within f n) m0 m -> (forall p, done p -> sorted lt (reg p)) -> sblocks done m.
Proof.
  intros done m HS HOn HD. exists reg. split; [|split; auto]. rewrite (regions_concat nb bin xs HB ys); auto. now rewrite (Permutation_length HP).
Qed.
End Blocks.

(** The loop on the bins. *)
Lemma sort_bins_wp : forall d rec (bin : A -> nat) nb xs ys f m0 cp mc, (0 < d)%Z -> sorts_wide d rec -> (1000 <= mc)%Z -> (forall x, In x xs -> bin x < nb) ->
  (forall x y, In x xs -> In y xs -> bin x < bin y -> (proj x < proj y)%Z) -> (forall x y, In x xs -> In y xs -> bin x = bin y -> (proj x - proj y < 2 ^ d)%Z) ->
  close xs -> Permutation xs ys -> blocked bin xs ys ->
  forall k u c m, u + k = nb -> length cp + nb <= length c -> firstn (length cp + nb) c = cp ++ map (fun p => Some (f + start bin xs (S p))) (seq 0 nb) ->
    sblocks nb bin xs ys f m0 (fun p => p < u) m ->
    wp (sort_bins proj branchless rec mc k (length cp + u) (length cp + nb) (f + start bin xs u) c)
      (fun c' m' => (length c <= length c' /\ firstn (length cp) c' = cp) /\ sblocks nb bin xs ys f m0 (fun p => p < nb) m') m.
Proof.
  intros d rec bin nb xs ys f m0 cp mc Hd Hrec Hmc HB HO HW HC HP HBl. induction k as [|k IH]; intros u c m Hk Hlen Hc HS.
  - apply wp_ret. replace nb with u by lia. replace u with nb in * by lia. split; auto. split; auto.
    rewrite <- (firstn_firstn c (length cp) (length cp + nb)) || idtac. replace (firstn (length cp) c) with (firstn (length cp) (firstn (length cp + nb) c)) by (rewrite firstn_firstn; f_equal; lia).
    rewrite Hc, firstn_app, Nat.sub_diag, firstn_all. cbn [firstn]. apply app_nil_r.
  - cbn [sort_bins].
    assert (HN : forall c', firstn (length cp + nb) c' = cp ++ map (fun p => Some (f + start bin xs (S p))) (seq 0 nb) -> nth_error c' (length cp + u) = Some (Some (f + start bin xs (S u)))).
    { intros c' H. assert (E : nth_error (firstn (length cp + nb) c') (length cp + u) = nth_error c' (length cp + u)) by (apply nth_firstn_lt; lia). rewrite <- E, H.
      rewrite nth_error_app2 by lia. replace (length cp + u - length cp) with u by lia. rewrite nth_map_seq by lia. auto. }
    wstep. unfold rd_init at 1. wstep. eapply wp_rd; [apply HN; auto|]. apply wp_ret. wstep.
    rewrite start_S. replace (f + (start bin xs u + cnt bin xs u) - (f + start bin xs u)) with (cnt bin xs u) by lia.
    eapply wp_mono.
    { apply (sblocks_step nb bin xs ys f m0 HB HP HBl (fun p => p < u) u m _ _ (fun c' => length c <= length c' /\ firstn (length cp + nb) c' = firstn (length cp + nb) c)); auto; [lia|].
      intros zs HSz HLz HIn. replace (f + (start bin xs u + cnt bin xs u)) with (f + start bin xs u + length zs) by lia. destruct (Nat.ltb_spec (cnt bin xs u) 2) as [H2|H2].
      - apply wp_ret. split; auto. exists zs. split; auto. split; [|apply only_refl]. split; auto. intros i j x y Hij Hx Hy. apply nth_lt in Hy. lia.
      - destruct (Z.ltb_spec (Z.of_nat (cnt bin xs u)) mc) as [H3|H3].
        + wstep. eapply (runs_seg (is_sorting_of lt) (pdq_sorter Z.ltb proj true branchless)); [exact (pdq_sorts Z.ltb proj zlt_swo branchless)| |exact HSz|reflexivity|].
          * intros a b [H _]. now rewrite (Permutation_length H).
          * intros ws m' HR HS' HO'. apply wp_ret. split; auto. exists ws. auto.
        + eapply wp_mono; [apply Hrec; auto; [lia| | ]|].
          * intros x y Hx Hy. apply HC; now apply HIn.
          * intros x y Hx Hy. destruct (HIn x Hx), (HIn y Hy). apply HW; auto. congruence.
          * cbv beta. intros c' m' (H1 & H4 & H5). auto. }
    cbv beta. intros c' m' ((HL' & HF') & HS'). wstep. unfold rd_init at 1. wstep. eapply wp_rd; [apply HN; congruence|]. apply wp_ret.
    rewrite start_S, <- (start_S bin xs u). replace (S (length cp + u)) with (length cp + S u) by lia.
    eapply wp_mono; [apply (IH (S u) c' m'); try lia; [congruence|]|].
    + destruct HS' as (g & G1 & G2 & G3). exists g. split; auto. split; auto. intros p Hp. destruct (G3 p Hp) as [E1 E2]. split; auto. intros Hlt. apply E2. lia.
    + cbv beta. intros c2 m2 [[K1 K2] K3]. split; auto. split; auto. lia.
Qed.
End Step.

Lemma spread_rec_sorts : forall fuel L, (0 <= L < Z.of_nat fuel)%Z -> (L <= 64)%Z -> sorts_wide L (spreadsort_rec t proj branchless fuel).
Proof.
  induction fuel as [|fuel IH]; intros L HL HL64; [lia|]. intros xs m f c off Hn HC HW HS Hoff. cbn [spreadsort_rec]. wstep. eapply wp_mono; [apply extremes_wp; auto; lia|].
  intros r m' [-> Hr]. destruct r as [[mx mn]|]; [|apply wp_ret; split; auto; exists xs; split; auto; split; [split; auto|apply only_refl]].
  destruct Hr as (i & j & x & y & -> & -> & Hi & Hj & HM). assert (Hxi : In x xs) by (eapply nth_error_In; eauto). assert (Hyi : In y xs) by (eapply nth_error_In; eauto).
  assert (Hxy : (proj y <= proj x)%Z) by (now apply HM). pose proof (HC x y Hxi Hyi Hxy) as Hfit. pose proof (fits_lt _ Hfit) as Hlt. pose proof promoted_bits as HPB.
  wstep. eapply wp_get; [eapply seg_get; eauto|]. wstep. eapply wp_get; [eapply seg_get; eauto|]. wstep. rewrite (arith_ok t real) by auto. apply wp_ret.
  assert (H264 : (2 ^ bits (promoted t) <= 2 ^ 64)%Z) by (apply Z.pow_le_mono_r; lia).
  assert (Ecv : convert size_type (proj x - proj y) = (proj x - proj y)%Z). { unfold convert, size_type. cbn [signed bits]. apply Z.mod_small. lia. } rewrite Ecv.
  set (lr := rough_log_2_size (proj x - proj y)). destruct (rough_log_spec (proj x - proj y) ltac:(lia)) as (Hlr & Hrl & _). fold lr in Hlr, Hrl.
  assert (Hlb : (lr <= bits (promoted t))%Z) by (apply rough_log_le; lia). assert (HlL : (lr <= L)%Z) by (apply rough_log_le; [lia|lia|now apply HW]).
  replace (f + length xs - f) with (length xs) by lia.
  set (d := get_log_divisor int_log_mean_bin_size (Z.of_nat (length xs)) lr). pose proof (log_divisor_spec (Z.of_nat (length xs)) lr Hn Hlr) as Hd. cbv zeta in Hd. fold d in Hd.
  assert (Hdb : (0 <= d < bits (promoted t))%Z) by lia. assert (HP2 : (0 < 2 ^ d)%Z) by (apply Z.pow_pos_nonneg; lia).
  assert (Hsh : forall z (Q : Z -> mem A -> Prop) m, Q (z / 2 ^ d)%Z m -> wp (shift_right t z d) Q m).
  { intros z Q m1 HQ. unfold shift_right. destruct (Z.leb_spec 0 d), (Z.ltb_spec d (bits (promoted t))); try lia. cbn [andb]. now apply wp_ret. }
  wstep. apply Hsh. wstep. apply Hsh. wstep. 
  assert (HDR : forall a b, In a xs -> In b xs -> (proj b <= proj a)%Z -> (0 <= proj a / 2 ^ d - proj b / 2 ^ d <= proj a - proj b)%Z).
  { intros a b Ha Hb Hab. split. { assert (proj b / 2 ^ d <= proj a / 2 ^ d)%Z by (apply Z.div_le_mono; lia). lia. }
    assert (proj a / 2 ^ d <= (proj b + (proj a - proj b) * 2 ^ d) / 2 ^ d)%Z. { apply Z.div_le_mono; auto. assert ((proj a - proj b) * 1 <= (proj a - proj b) * 2 ^ d)%Z by (apply Z.mul_le_mono_nonneg_l; lia). lia. }
    rewrite Z.div_add in H by lia. lia. }
  pose proof (HDR x y Hxi Hyi Hxy) as Hdxy.
  rewrite (arith_ok t real) by (eapply fits_down; [|exact Hfit]; lia). apply wp_ret.
  assert (Hbc : (0 <= proj x / 2 ^ d - proj y / 2 ^ d < 2 ^ 12)%Z).
  { split; [lia|]. destruct Hd as [[-> Hl12]|[Hd1 Hd2]].
    - rewrite Z.pow_0_r, !Z.div_1_r. assert (2 ^ lr <= 2 ^ 12)%Z by (apply Z.pow_le_mono_r; lia). lia.
    - pose proof (div_range (proj x) (proj y) lr d ltac:(lia) Hxy Hrl). assert (2 ^ (lr - d) <= 2 ^ 11)%Z by (apply Z.pow_le_mono_r; lia). lia. }
  assert (Enb : Z.to_nat (convert uint32 (convert uint32 (proj x / 2 ^ d - proj y / 2 ^ d) + 1)) = Z.to_nat (proj x / 2 ^ d - proj y / 2 ^ d + 1)).
  { f_equal. unfold convert, uint32. cbn [signed bits]. rewrite (Z.mod_small (proj x / 2 ^ d - proj y / 2 ^ d)) by lia. apply Z.mod_small. lia. }
  rewrite Enb. set (nb := Z.to_nat (proj x / 2 ^ d - proj y / 2 ^ d + 1)). set (bin := fun z => Z.to_nat (proj z / 2 ^ d - proj y / 2 ^ d)).
  assert (Hbr : forall z, In z xs -> (0 <= proj z / 2 ^ d - proj y / 2 ^ d <= proj x / 2 ^ d - proj y / 2 ^ d)%Z).
  { intros z Hz. pose proof (HM z Hz). split; [apply HDR; auto; lia|]. assert (proj z / 2 ^ d <= proj x / 2 ^ d)%Z by (apply Z.div_le_mono; lia). lia. }
  assert (HB : forall z, In z xs -> bin z < nb). { intros z Hz. pose proof (Hbr z Hz). unfold bin, nb. lia. }
  assert (Hbin : forall z m1, In z xs -> bin_of t proj d (proj y / 2 ^ d) z m1 = Ok (bin z) m1).
  { intros z m1 Hz. pose proof (Hbr z Hz). assert (W : wp (bin_of t proj d (proj y / 2 ^ d) z) (fun r m2 => r = bin z /\ m2 = m1) m1).
    { unfold bin_of. wstep. apply Hsh. wstep. rewrite (arith_ok t real). 2:{ eapply fits_down; [|apply (HC z y Hz Hyi); now apply HM]. split; [lia|]. apply HDR; auto. now apply HM. }
      apply wp_ret. destruct (Z.ltb_spec (proj z / 2 ^ d - proj y / 2 ^ d) 0); [lia|]. now apply wp_ret. }
    apply wp_ok in W as (r & m2 & E & -> & ->). exact E. }
  assert (HO : forall a b, In a xs -> In b xs -> bin a < bin b -> (proj a < proj b)%Z).
  { intros a b Ha Hb H. pose proof (Hbr a Ha). pose proof (Hbr b Hb). apply (div_lt _ _ d); [lia|]. unfold bin in H. lia. }
  assert (HE : forall a b, In a xs -> In b xs -> bin a = bin b -> (proj a - proj b < 2 ^ d)%Z).
  { intros a b Ha Hb H. pose proof (Hbr a Ha). pose proof (Hbr b Hb). apply (div_same _ _ d); [lia|]. unfold bin in H. lia. }
  assert (Hnb : 0 < nb) by (unfold nb; lia).
  set (cp := firstn off c). assert (Hcp : length cp = off) by (unfold cp; rewrite firstn_length; lia).
  assert (exists cq h, c ++ repeat None (off + nb - length c) = sect cp cq nb h /\ length c <= length (sect cp cq nb h)) as (cq & h & Ec & Hlc).
  { set (c2 := c ++ repeat None (off + nb - length c)). assert (H2 : off + nb <= length c2) by (unfold c2; rewrite app_length, repeat_length; lia).
    exists (skipn (off + nb) c2), (fun p => nth p (skipn off c2) None). assert (E : c2 = sect cp (skipn (off + nb) c2) nb (fun p => nth p (skipn off c2) None)).
    { unfold sect. rewrite <- (firstn_skipn off c2) at 1. f_equal.
      - unfold c2, cp. rewrite firstn_app. replace (off - length c) with 0 by lia. cbn [firstn]. now rewrite app_nil_r.
      - rewrite <- (firstn_skipn nb (skipn off c2)) at 1. rewrite skipn_skipn. f_equal. apply nth_ext. intros k. destruct (Nat.lt_ge_cases k nb) as [Hk|Hk].
        + rewrite nth_map_seq by auto. rewrite nth_firstn_lt by auto. apply nth_error_nth'. rewrite skipn_length. lia.
        + transitivity (@None (option nat)); [|symmetry]; apply nth_error_None; [rewrite firstn_length|rewrite map_length, seq_length]; lia. }
    rewrite <- E. split; auto. unfold c2. rewrite app_length. lia. }
  rewrite Ec. wstep. eapply wp_mono; [apply (count_bins_wp t proj d (proj y / 2 ^ d) nb bin xs f Hbin HB); auto; unfold nb, max_finishing_splits, max_splits; lia|]. intros v m' [-> ->].
  wstep. rewrite <- Hcp at 1. eapply wp_mono; [apply (assign_bins_wp t proj d (proj y / 2 ^ d)%Z nb bin xs f cp cq Hbin); auto|]. intros c1 m' [-> ->].
  wstep. rewrite <- Hcp at 1. eapply wp_mono; [apply (fill_bins_wp t proj d (proj y / 2 ^ d) nb bin xs f m cp cq Hbin HB m Hnb eq_refl HS)|]. intros c1 m' (-> & ys & (HS' & HP & HOn) & HBl).
  set (c1 := sect cp cq nb (fun p => Some (f + start bin xs (S p)))).
  assert (HL1 : length c1 = length cp + nb + length cq) by apply sect_len. rewrite sect_len in Hlc.
  destruct (Z.eqb_spec d 0) as [E0|E0].
  - apply wp_ret. split; [|split; [lia|]].
    + apply (sblocks_sorted nb bin xs ys f m HB HO HP HBl (fun p => p < nb)); auto. apply sblocks_init; auto. intros p Hp a b z w Hab Hz Hw.
      apply nth_error_In in Hz, Hw. destruct (sreg_in nb bin xs ys HB HP HBl p z Hz) as [Z1 Z2]. destruct (sreg_in nb bin xs ys HB HP HBl p w Hw) as [W1 W2].
      assert (HzW : (proj z - proj w < 2 ^ d)%Z) by (apply HE; auto; congruence). rewrite E0, Z.pow_0_r in HzW. unfold by_proj. apply Z.ltb_ge. lia.
    + unfold c1, sect. rewrite <- Hcp at 1. rewrite firstn_app, Nat.sub_diag, firstn_all. cbn [firstn]. apply app_nil_r.
  - rewrite <- Hcp at 1 2. replace f with (f + start bin xs 0) at 1 by (cbn [start]; lia). replace (length cp) with (length cp + 0) at 1 by lia.
    eapply wp_mono; [eapply (sort_bins_wp d (spreadsort_rec t proj branchless fuel) bin nb xs ys f m cp); auto; try lia|].
    + apply IH; lia.
    + apply min_count_ge. lia.
    + unfold c1, sect. rewrite app_assoc, firstn_app, app_length, map_length, seq_length, Nat.sub_diag, firstn_all2 by (rewrite app_length, map_length, seq_length; lia). cbn [firstn]. apply app_nil_r.
    + apply sblocks_init; auto. intros p Hp. lia.
    + cbv beta. intros c2 m2 [[K1 K2] K3]. split; [|split; [lia|]].
      * apply (sblocks_sorted nb bin xs ys f m HB HO HP HBl (fun p => p < nb)); auto.
      * rewrite Hcp in K2. exact K2.
Qed.

Theorem integer_spread_sorts : sorts_when close lt (integer_spread_sorter t proj branchless).
Proof.
  intros pre xs post HC. apply wp_run_sorts. unfold integer_spread_sorter. replace (length pre + length xs - length pre) with (length xs) by lia. destruct (Nat.ltb_spec (length xs) min_sort_size) as [H|H].
  - eapply (runs_seg (is_sorting_of lt) (pdq_sorter Z.ltb proj true branchless)); [exact (pdq_sorts Z.ltb proj zlt_swo branchless)| |apply seg_intro; reflexivity|reflexivity|].
    + intros a b [H2 _]. now rewrite (Permutation_length H2).
    + intros ws m' HR HS' HO'. exists ws. auto.
  - apply wp_bind. eapply wp_mono; [apply (spread_rec_sorts (S 64) 64); auto; try lia|].
    + unfold min_sort_size in H. lia.
    + intros x y Hx Hy. destruct (Z.le_gt_cases (proj y) (proj x)) as [Hle|Hgt]; [|lia]. pose proof (fits_lt _ (HC x y Hx Hy Hle)). pose proof promoted_bits.
      assert (2 ^ bits (promoted t) <= 2 ^ 64)%Z by (apply Z.pow_le_mono_r; lia). lia.
    + apply seg_intro. reflexivity.
    + intros c m' (Hy & _). apply wp_ret. exact Hy.
Qed.

(** The difference of the extreme keys overflows. *)
Theorem integer_spread_overflow : forall pre xs post, 1000 <= length xs -> ~ sorted lt xs -> (forall x, In x xs -> fits t (proj x) = true) ->
  signed (promoted t) = true -> (exists x y, In x xs /\ In y xs /\ (type_max (promoted t) < proj x - proj y)%Z) ->
  integer_spread_sorter t proj branchless (length pre) (length pre + length xs) (pre ++ map Val xs ++ post) = UB.
Proof.
  intros pre xs post HL HN HF HSg (x & y & Hx & Hy & HD). unfold integer_spread_sorter. replace (length pre + length xs - length pre) with (length xs) by lia.
  destruct (Nat.ltb_spec (length xs) min_sort_size) as [H|H]. { unfold min_sort_size in H. lia. }
  apply ub_bind_l. change (S 64) with (S 64). cbn [spreadsort_rec]. apply ub_bind. eapply wp_mono; [apply extremes_wp; [lia|apply seg_intro; reflexivity]|].
  intros r m' [-> Hr]. destruct r as [[mx mn]|]; [|contradiction]. destruct Hr as (i & j & x' & y' & -> & -> & Hi & Hj & HM).
  assert (HS : seg (pre ++ map Val xs ++ post) (length pre) xs) by (apply seg_intro; reflexivity).
  apply ub_bind. eapply wp_get; [eapply seg_get; eauto|]. apply ub_bind. eapply wp_get; [eapply seg_get; eauto|]. apply ub_bind_l. unfold arith. rewrite HSg.
  pose proof (HM x Hx). pose proof (HM y Hy). assert (E : fits (promoted t) (proj x' - proj y') = false).
  { unfold fits. apply andb_false_iff. right. apply Z.leb_gt. lia. } now rewrite E.
Qed.
End Spread.
