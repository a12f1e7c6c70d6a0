(** float_spread_sorter. *)
From Coq Require Import List Arith ZArith Lia Permutation Bool.
From Verif Require Import Spec.Order Lang.Mem Spec.Sorts Spec.Verge Proofs.Wp Proofs.OrderLib Model.Basic Proofs.Basic Model.Indirect Proofs.Indirect Proofs.Search Proofs.Regions Proofs.Bins
  Model.Pdq Proofs.Pdq Model.Counting Proofs.Counting Model.Ska Proofs.SkaLib Proofs.Ska Proofs.SkaKeys Proofs.SpinTrap Model.Spread Proofs.SpreadArith Proofs.SpreadBins Proofs.Spread
  Model.Comparators Model.Ieee Proofs.Ieee Model.SpreadFloat Proofs.SpreadFill.
Import ListNotations.
Local Open Scope nat_scope.
Local Arguments nth_error : simpl never.
Local Arguments upd : simpl never.
Local Arguments Nat.leb : simpl never.
Local Arguments Nat.ltb : simpl never.
Local Arguments Nat.eqb : simpl never.
Local Arguments Nat.sub : simpl never.
Local Arguments loop : simpl never.
Local Arguments Z.pow : simpl never.
Local Opaque seq.

(** * The numbers *)
Lemma log_divisor_small : forall count lr, (16 <= count)%Z -> (0 <= lr <= 64)%Z ->
  let d := get_log_divisor float_log_mean_bin_size count lr in (d = 0 /\ lr <= 12 \/ 0 < d <= lr - 3 /\ lr - d <= 11)%Z.
Proof.
  intros count lr HC HL. assert (4 < rough_log_2_size count)%Z by (apply rough_log_ge; lia). unfold get_log_divisor, float_log_mean_bin_size, max_finishing_splits, max_splits. cbv zeta.
  repeat match goal with |- context [(?a <? ?b)%Z] => destruct (Z.ltb_spec a b) | |- context [(?a <=? ?b)%Z] => destruct (Z.leb_spec a b) end; cbn [andb]; lia.
Qed.
Lemma float_min_count_ge : forall d, (0 < d <= 64)%Z -> (16 <= float_min_count d)%Z.
Proof.
  intros d Hd. assert (HF : forallb (fun i => 16 <=? float_min_count (Z.of_nat i))%Z (seq 0 65) = true) by (vm_compute; reflexivity).
  rewrite forallb_forall in HF. specialize (HF (Z.to_nat d)). rewrite Z2Nat.id in HF by lia. apply Z.leb_le. apply HF. apply in_seq. lia.
Qed.

Section Blocks.
Context {A : Type} (lt : A -> A -> bool).
Implicit Types (m : mem A).
Context (nb : nat) (bin : A -> nat) (xs ys : list A) (f : nat) (m0 : mem A).
Hypothesis HB : forall x, In x xs -> bin x < nb.
Hypothesis HO : forall x y, In x xs -> In y xs -> bin x < bin y -> lt y x = false.
Hypothesis HP : Permutation xs ys.
Hypothesis HBl : blocked bin xs ys.
Local Notation n := (length xs).
Local Notation cnt := (cnt bin xs).
Local Notation start := (start bin xs).
Local Notation reg := (region bin xs ys).

Definition sblocks (done : nat -> Prop) m : Prop := exists g, seg m f (flat_map g (seq 0 nb)) /\ only (within f n) m0 m /\
  forall p, p < nb -> Permutation (reg p) (g p) /\ (done p -> sorted lt (g p)).

Lemma sflat_len : forall g p, p <= nb -> (forall q, q < nb -> Permutation (reg q) (g q)) -> length (flat_map g (seq 0 p)) = start p.
Proof.
  intros g p Hp HG. induction p as [|p IH]; auto. rewrite seq_S, flat_map_app, app_length, IH by lia. cbn [flat_map plus]. rewrite app_nil_r, start_S, <- (Permutation_length (HG p ltac:(lia))).
  rewrite (region_length nb bin xs HB); auto. now rewrite (Permutation_length HP).
Qed.
Lemma sflat_split : forall (g : nat -> list A) p, p < nb -> flat_map g (seq 0 nb) = flat_map g (seq 0 p) ++ g p ++ flat_map g (seq (S p) (nb - S p)).
Proof.
  intros g p Hp. replace (seq 0 nb) with (seq 0 (p + S (nb - S p))) by (f_equal; lia). rewrite seq_app, flat_map_app. cbn [plus]. rewrite <- cons_seq. reflexivity.
Qed.
Lemma sreg_in : forall p x, In x (reg p) -> In x xs /\ bin x = p.
Proof.
  intros p x Hx. split; [|eapply (region_bin nb bin xs HB); eauto]. eapply Permutation_in; [symmetry; exact HP|]. apply In_nth_error in Hx as (i & Hi). apply (region_nth nb bin xs HB) in Hi as [Hi _]. eapply nth_error_In; eauto.
Qed.

(** One region is sorted. *)
Lemma sblocks_step : forall (done : nat -> Prop) p m X (c : M A X) (R : X -> Prop), p < nb -> sblocks done m ->
  (forall zs, seg m (f + start p) zs -> length zs = cnt p -> (forall z, In z zs -> In z xs /\ bin z = p) ->
     wp c (fun r m' => R r /\ exists zs', seg m' (f + start p) zs' /\ is_sorting_of lt zs zs' /\ only (within (f + start p) (length zs)) m m') m) ->
  wp c (fun r m' => R r /\ sblocks (fun q => done q \/ q = p) m') m.
Proof.
  intros done p m X c R Hp (g & HS & HOn & HG) Hc. rewrite (sflat_split g p Hp) in HS. apply seg_app in HS as [HS1 HS2]. apply seg_app in HS2 as [HS2 HS3].
  assert (HL : length (g p) = cnt p). { rewrite <- (Permutation_length (proj1 (HG p Hp))). apply (region_length nb bin xs HB); auto. now rewrite (Permutation_length HP). }
  assert (HL1 : length (flat_map g (seq 0 p)) = start p) by (apply sflat_len; [lia|intros; now apply HG]).
  rewrite HL1 in HS2, HS3. assert (HLs : start (S p) <= n). { rewrite <- (start_all nb bin xs HB). now apply start_mono. } rewrite start_S in HLs.
  eapply wp_mono; [apply (Hc (g p) HS2 HL)|].
  - intros z Hz. apply sreg_in. eapply Permutation_in; [symmetry; apply (HG p Hp)|auto].
  - cbv beta. intros r m' (HR & zs & HSz & [HPz Hsz] & HO'). split; auto. exists (fun q => if q =? p then zs else g q). split; [|split].
    + rewrite (sflat_split _ p Hp). rewrite Nat.eqb_refl.
      assert (E1 : flat_map (fun q => if q =? p then zs else g q) (seq 0 p) = flat_map g (seq 0 p)). { apply flat_map_ext_in. intros q Hq. apply in_seq in Hq. destruct (Nat.eqb_spec q p); [lia|auto]. }
      assert (E2 : flat_map (fun q => if q =? p then zs else g q) (seq (S p) (nb - S p)) = flat_map g (seq (S p) (nb - S p))). { apply flat_map_ext_in. intros q Hq. apply in_seq in Hq. destruct (Nat.eqb_spec q p); [lia|auto]. }
      rewrite E1, E2. apply seg_app. split; [|apply seg_app; split].
      * eapply seg_only; [exact HO'| |exact HS1]. unfold within. intros. lia.
      * now rewrite HL1.
      * rewrite HL1, <- (Permutation_length HPz). eapply seg_only; [exact HO'| |exact HS3]. unfold within. intros. lia.
    + eapply only_trans; [exact HOn|]. eapply only_weaken; [exact HO'|]. unfold within. intros. lia.
    + intros q Hq. destruct (HG q Hq) as [G1 G2]. destruct (Nat.eqb_spec q p) as [->|]. { split; auto. now rewrite G1. } split; auto. intros [H|H]; [auto|contradiction].
Qed.

Lemma sblocks_sorted : forall (done : nat -> Prop) m, (forall p, p < nb -> done p) -> sblocks done m -> exists zs, seg m f zs /\ is_sorting_of lt xs zs /\ only (within f n) m0 m.
Proof.
  intros done m HD (g & HS & HOn & HG). exists (flat_map g (seq 0 nb)). split; auto. split; auto.
  assert (HQ : forall q, q <= nb -> Permutation (flat_map reg (seq 0 q)) (flat_map g (seq 0 q)) /\ sorted lt (flat_map g (seq 0 q)) /\ forall x, In x (flat_map g (seq 0 q)) -> In x xs /\ bin x < q).
  { induction q as [|q IH]; intros Hq. { split; [constructor|]. split; [apply sorted_nil|]. intros x []. }
    destruct (IH ltac:(lia)) as (I1 & I2 & I3). destruct (HG q ltac:(lia)) as [G1 G2]. rewrite seq_S, !flat_map_app. cbn [flat_map plus]. rewrite !app_nil_r.
    assert (HX : forall z, In z (g q) -> In z xs /\ bin z = q). { intros z Hz. apply sreg_in. eapply Permutation_in; [symmetry; exact G1|auto]. }
    split; [now apply Permutation_app|]. split.
    - apply sorted_app. split; auto. split; [apply G2; apply HD; lia|].
      intros x y Hx Hy. destruct (I3 x Hx), (HX y Hy). apply HO; auto; lia.
    - intros x Hx. apply in_app_iff in Hx as [Hx|Hx]; [destruct (I3 x Hx)|destruct (HX x Hx)]; split; auto; lia. }
  destruct (HQ nb) as (H1 & H2 & _); auto. split; auto. rewrite HP. rewrite (regions_concat nb bin xs HB ys) in H1; auto. now rewrite (Permutation_length HP).
Qed.
Lemma sblocks_init : forall (done : nat -> Prop) m, seg m f ys -> only (within f n) m0 m -> (forall p, done p -> sorted lt (reg p)) -> sblocks done m.
Proof.
  intros done m HS HOn HD. exists reg. split; [|split; auto]. rewrite (regions_concat nb bin xs HB ys); auto. now rewrite (Permutation_length HP).
Qed.
Lemma sblocks_weaken : forall (d d' : nat -> Prop) m, (forall p, p < nb -> d' p -> d p) -> sblocks d m -> sblocks d' m.
Proof. intros d d' m H (g & G1 & G2 & G3). exists g. split; auto. split; auto. intros p Hp. destruct (G3 p Hp) as [E1 E2]. split; auto. Qed.
End Blocks.

Section Float.
Context {A : Type} {fmt : format} (proj : A -> number fmt) (branchless : bool).
Local Notation lt := (by_proj less proj).
Local Notation t := (div_type fmt).
Local Notation key x := (cast (proj x)).
Implicit Types (m : mem A).
Hypothesis HF : supported fmt.

Lemma fbits : (width fmt = 32 \/ width fmt = 64)%Z.
Proof. destruct HF as [-> | ->]; cbn; auto. Qed.
Lemma fpromoted : promoted t = t.
Proof. unfold promoted. cbn [bits div_type]. destruct (Z.ltb_spec (width fmt) 32); auto. pose proof fbits. lia. Qed.
Lemma freal : real_type t.
Proof. unfold real_type. cbn [bits div_type]. pose proof fbits. lia. Qed.
Lemma cast_spec : forall x : number fmt, cast x = (if negative fmt (pattern x) then pattern x - 2 ^ width fmt else pattern x)%Z.
Proof.
  intros x. destruct (number_spec fmt x) as [X1 _]. pose proof (pow_W fmt (supported_bits fmt HF)) as HW. unfold cast, convert. cbn [signed bits div_type].
  replace (width fmt - 1)%Z with (magnitude_bits fmt) by (unfold width; lia). assert (HB : (0 < 2 ^ magnitude_bits fmt)%Z) by (apply Z.pow_pos_nonneg; [lia|unfold width in *; pose proof fbits; unfold width in *; lia]).
  unfold negative. destruct (Z.leb_spec (2 ^ magnitude_bits fmt) (pattern x)).
  - replace (pattern x + 2 ^ magnitude_bits fmt)%Z with (pattern x - 2 ^ magnitude_bits fmt + 1 * 2 ^ width fmt)%Z by lia. rewrite Z.mod_add by lia. rewrite Z.mod_small by lia. lia.
  - rewrite Z.mod_small by lia. lia.
Qed.
Lemma cast_range : forall x : number fmt, (- 2 ^ (width fmt - 1) <= cast x < 2 ^ (width fmt - 1))%Z.
Proof.
  intros x. rewrite cast_spec. destruct (number_spec fmt x) as [X1 _]. pose proof (pow_W fmt (supported_bits fmt HF)) as HW. replace (width fmt - 1)%Z with (magnitude_bits fmt) by (unfold width; lia).
  unfold negative. destruct (Z.leb_spec (2 ^ magnitude_bits fmt) (pattern x)); lia.
Qed.
Lemma sm_cast : forall x : number fmt, signed_magnitude fmt (pattern x) = (if cast x <? 0 then - (cast x + 2 ^ (width fmt - 1)) else cast x)%Z.
Proof.
  intros x. rewrite cast_spec. destruct (number_spec fmt x) as [X1 _]. pose proof (pow_W fmt (supported_bits fmt HF)) as HW. replace (width fmt - 1)%Z with (magnitude_bits fmt) by (unfold width; lia).
  unfold signed_magnitude, magnitude, negative. destruct (Z.leb_spec (2 ^ magnitude_bits fmt) (pattern x)); [destruct (Z.ltb_spec (pattern x - 2 ^ width fmt) 0); lia|destruct (Z.ltb_spec (pattern x) 0); lia].
Qed.
Lemma less_pos : forall x y : number fmt, (0 <= cast x)%Z -> (0 <= cast y)%Z -> less x y = (cast x <? cast y)%Z.
Proof. intros x y Hx Hy. rewrite less_signed_magnitude by (now apply supported_bits). rewrite !sm_cast. destruct (Z.ltb_spec (cast x) 0); [lia|]. destruct (Z.ltb_spec (cast y) 0); [lia|auto]. Qed.
Lemma less_neg : forall x y : number fmt, (cast x < 0)%Z -> (cast y < 0)%Z -> less x y = (cast y <? cast x)%Z.
Proof.
  intros x y Hx Hy. rewrite less_signed_magnitude by (now apply supported_bits). rewrite !sm_cast. destruct (Z.ltb_spec (cast x) 0); [|lia]. destruct (Z.ltb_spec (cast y) 0); [|lia].
  apply eq_true_iff_eq. rewrite !Z.ltb_lt. lia.
Qed.
Lemma less_sign : forall x y : number fmt, (cast x < 0)%Z -> (0 <= cast y)%Z -> less y x = false.
Proof. intros x y Hx Hy. rewrite less_signed_magnitude by (now apply supported_bits). rewrite !sm_cast. pose proof (cast_range x). destruct (Z.ltb_spec (cast x) 0); [|lia]. destruct (Z.ltb_spec (cast y) 0); [lia|]. apply Z.ltb_ge. lia. Qed.
Lemma fp_ge_less : forall x y : number fmt, fp_ge (decode fmt (pattern x)) (decode fmt (pattern y)) = negb (less x y).
Proof. intros x y. unfold fp_ge, less. destruct (number_spec fmt x) as [_ ->]. destruct (number_spec fmt y) as [_ ->]. reflexivity. Qed.
Lemma flt_swo : strict_weak_order (@less fmt).
Proof. apply less_swo. now apply supported_bits. Qed.

(** * The extremes *)
Local Notation sm x := (signed_magnitude fmt (pattern (proj x))).
Lemma lt_sm : forall x y, lt x y = (sm x <? sm y)%Z.
Proof. intros x y. unfold by_proj. apply less_signed_magnitude. now apply supported_bits. Qed.

Lemma float_extremes_wp : forall xs m f, 1 <= length xs -> seg m f xs ->
  wp (float_extremes proj f (f + length xs)) (fun '(srt, mx, mn) m' => m' = m /\ (srt = true -> sorted lt xs) /\
     (exists x, In x xs /\ key x = mx) /\ (exists y, In y xs /\ key y = mn) /\ forall z, In z xs -> (mn <= key z <= mx)%Z) m.
Proof.
  intros xs m f HL HS. unfold float_extremes. destruct (nth_some _ xs 0) as (x0 & H0); [lia|]. wstep. eapply wp_get; [replace f with (f + 0) by lia; eapply seg_get; eauto|].
  apply wp_loop' with (I := fun '(cur, prev, srt, mx, mn) m' => m' = m /\ prev = cur /\ exists c, cur = f + c /\ c < length xs /\
     (srt = true -> forall i j x y, i <= j <= c -> nth_error xs i = Some x -> nth_error xs j = Some y -> (sm x <= sm y)%Z) /\
     (exists x, In x xs /\ key x = mx) /\ (exists y, In y xs /\ key y = mn) /\ forall k z, k <= c -> nth_error xs k = Some z -> (mn <= key z <= mx)%Z) (mu := fun '(cur, _, _, _, _) => f + length xs - cur).
  - split; auto. split; auto. exists 0. cj; try lia.
    + intros _ i j x y Hij Hx Hy. replace i with 0 in Hx by lia. replace j with 0 in Hy by lia. assert (x = y) by congruence. subst. lia.
    + exists x0. split; auto. eapply nth_error_In; eauto.
    + exists x0. split; auto. eapply nth_error_In; eauto.
    + intros k z Hk Hz. replace k with 0 in Hz by lia. assert (z = x0) by congruence. subst. lia.
  - lia.
  - intros [[[[cur prev] srt] mx] mn] m' (-> & -> & c & -> & Hc & HO & Hmx & Hmn & HK). destruct (Nat.ltb_spec (S (f + c)) (f + length xs)) as [Hl|Hl].
    + destruct (nth_some _ xs c) as (y & Hy); [lia|]. destruct (nth_some _ xs (S c)) as (x & Hx); [lia|]. assert (Hxin : In x xs) by (eapply nth_error_In; eauto).
      wstep. eapply wp_get; [replace (S (f + c)) with (f + S c) by lia; eapply seg_get; eauto|]. wstep. eapply wp_get; [eapply seg_get; eauto|]. rewrite fp_ge_less.
      assert (HO' : srt && negb (less (proj x) (proj y)) = true -> forall i j a b, i <= j <= S c -> nth_error xs i = Some a -> nth_error xs j = Some b -> (sm a <= sm b)%Z).
      { intros Hs i j a b Hij Ha Hb. apply andb_true_iff in Hs as [Hs1 Hs2]. apply negb_true_iff in Hs2. change (lt x y = false) in Hs2. rewrite lt_sm in Hs2. apply Z.ltb_ge in Hs2.
        destruct (Nat.eq_dec j (S c)) as [->|]; [|apply (HO Hs1 i j); auto; lia]. assert (b = x) by congruence. subst b.
        destruct (Nat.eq_dec i (S c)) as [->|]. { assert (a = x) by congruence. subst. lia. } specialize (HO Hs1 i c a y ltac:(lia) Ha Hy). lia. }
      assert (Hyx : (mn <= mx)%Z) by (specialize (HK c y (le_n _) Hy); lia).
      assert (HX : forall k w, k <= S c -> nth_error xs k = Some w -> w = x \/ (mn <= key w <= mx)%Z).
      { intros k w Hk Hw. destruct (Nat.eq_dec k (S c)) as [->|]; [left; congruence|right; apply (HK k); auto; lia]. }
      destruct (Z.ltb_spec mx (key x)); [|destruct (Z.ltb_spec (key x) mn)]; apply wp_ret; (split; [|lia]); split; auto; split; auto; exists (S c);
        (split; [lia|]); (split; [lia|]); (split; [exact HO'|]).
      * split; [eauto|]. split; auto. intros k w Hk Hw. destruct (HX k w Hk Hw) as [->|]; lia.
      * split; auto. split; [eauto|]. intros k w Hk Hw. destruct (HX k w Hk Hw) as [->|]; lia.
      * split; auto. split; auto. intros k w Hk Hw. destruct (HX k w Hk Hw) as [->|]; lia.
    + apply wp_ret. split; auto. split; [|split; [auto|split; [auto|]]].
      * intros Hs i j x y Hij Hx Hy. rewrite lt_sm. apply Z.ltb_ge. apply (HO Hs i j); auto. apply nth_lt in Hy. lia.
      * intros z Hz. apply In_nth_error in Hz as (k & Hk). apply (HK k); auto. apply nth_lt in Hk. lia.
Qed.

(** * The bins *)
Definition fclose (xs : list A) : Prop := forall x y, In x xs -> In y xs -> (key x - key y < 2 ^ (width fmt - 1))%Z.
Definition fwithin (L : Z) (xs : list A) : Prop := forall x y, In x xs -> In y xs -> (key x - key y < 2 ^ L)%Z.
Definition pb (d dm : Z) (x : A) : nat := Z.to_nat (key x / 2 ^ d - dm).

Definition prepared (xs : list A) (d dm : Z) (nb : nat) : Prop :=
  (0 <= d < 64)%Z /\ (0 < nb)%nat /\ (Z.of_nat nb <= 2 ^ 12)%Z /\
  (forall x m, In x xs -> bin_of t (fun x => cast (proj x)) d dm x m = Ok (pb d dm x) m) /\
  (forall x, In x xs -> 0 <= key x / 2 ^ d - dm < Z.of_nat nb)%Z /\
  (exists y, In y xs /\ dm = (key y / 2 ^ d)%Z) /\ (exists x, In x xs /\ (Z.of_nat nb = key x / 2 ^ d - dm + 1)%Z).

Lemma ffits : forall z, (0 <= z < 2 ^ (width fmt - 1))%Z -> fits t z = true.
Proof. intros z Hz. unfold fits, type_min, type_max. cbn [signed bits div_type]. apply andb_true_iff. split; apply Z.leb_le; lia. Qed.

Lemma prepare_wp : forall xs m f c off L, (16 <= Z.of_nat (length xs))%Z -> fclose xs -> fwithin L xs -> (0 <= L <= 64)%Z -> seg m f xs ->
  wp (prepare proj f (f + length xs) c off) (fun r m' => m' = m /\ match r with
    | None => sorted lt xs
    | Some (d, dm, nb, v, c') => prepared xs d dm nb /\ (d = 0 \/ d < L)%Z /\ (forall x y, In x xs -> In y xs -> forall k, 11 < k < 64 -> 2 ^ k <= key x - key y -> k - 10 <= d)%Z /\
        (1000 <= length xs -> (forall x y, In x xs -> In y xs -> key x - key y < 2 ^ 10)%Z -> d = 0%Z) /\ v = map (cnt (pb d dm) xs) (seq 0 nb) /\ c' = c ++ repeat None (off + nb - length c)
    end) m.
Proof.
  intros xs m f c off L Hn HC HW HL64 HS. unfold prepare. wstep. eapply wp_mono; [apply float_extremes_wp; auto; lia|].
  intros [[srt mx] mn] m' (-> & Hsr & (x & Hxi & Ex) & (y & Hyi & Ey) & HM). destruct srt; [apply wp_ret; auto|]. pose proof fbits as Hfb.
  assert (Hxy : (mn <= mx)%Z) by (pose proof (HM x Hxi); lia). pose proof (HC x y Hxi Hyi) as Hlt. rewrite Ex, Ey in Hlt. pose proof (ffits (mx - mn) ltac:(lia)) as Hfit.
  wstep. rewrite (arith_ok t freal) by (now rewrite fpromoted). apply wp_ret.
  assert (H264 : (2 ^ (width fmt - 1) <= 2 ^ 63)%Z) by (apply Z.pow_le_mono_r; lia). assert (H265 : (2 ^ (width fmt - 1) <= 2 ^ width fmt)%Z) by (apply Z.pow_le_mono_r; lia).
  assert (Ecv : convert size_type (convert {| bits := width fmt; signed := false |} (mx - mn)) = (mx - mn)%Z). { unfold convert, size_type. cbn [signed bits]. rewrite (Z.mod_small (mx - mn) (2 ^ width fmt)) by lia. apply Z.mod_small. lia. } rewrite Ecv.
  set (lr := rough_log_2_size (mx - mn)). destruct (rough_log_spec (mx - mn) ltac:(lia)) as (Hlr & Hrl & _). fold lr in Hlr, Hrl.
  assert (Hlb : (lr <= width fmt - 1)%Z) by (apply rough_log_le; lia). assert (HlL : (lr <= L)%Z). { apply rough_log_le; [lia|lia|]. rewrite <- Ex, <- Ey. now apply HW. }
  replace (f + length xs - f) with (length xs) by lia.
  set (d := get_log_divisor float_log_mean_bin_size (Z.of_nat (length xs)) lr). pose proof (log_divisor_small (Z.of_nat (length xs)) lr Hn Hlr) as Hd. cbv zeta in Hd. fold d in Hd.
  assert (Hdb : (0 <= d < width fmt)%Z) by lia. assert (HP2 : (0 < 2 ^ d)%Z) by (apply Z.pow_pos_nonneg; lia).
  assert (Hsh : forall z (Q : Z -> mem A -> Prop) m, Q (z / 2 ^ d)%Z m -> wp (shift_right t z d) Q m).
  { intros z Q m1 HQ. unfold shift_right. rewrite fpromoted. cbn [bits div_type]. destruct (Z.leb_spec 0 d), (Z.ltb_spec d (width fmt)); try lia. cbn [andb]. now apply wp_ret. }
  wstep. apply Hsh. wstep. apply Hsh. wstep.
  assert (HDR : forall a b, (b <= a)%Z -> (0 <= a / 2 ^ d - b / 2 ^ d <= a - b)%Z).
  { intros a b Hab. split. { assert (b / 2 ^ d <= a / 2 ^ d)%Z by (apply Z.div_le_mono; lia). lia. }
    assert (a / 2 ^ d <= (b + (a - b) * 2 ^ d) / 2 ^ d)%Z. { apply Z.div_le_mono; auto. assert ((a - b) * 1 <= (a - b) * 2 ^ d)%Z by (apply Z.mul_le_mono_nonneg_l; lia). lia. }
    rewrite Z.div_add in H by lia. lia. }
  pose proof (HDR mx mn Hxy) as Hdxy.
  rewrite (arith_ok t freal) by (rewrite fpromoted; apply ffits; lia). apply wp_ret.
  assert (Hbc : (0 <= mx / 2 ^ d - mn / 2 ^ d < 2 ^ 12)%Z).
  { split; [lia|]. destruct Hd as [[-> Hl12]|[Hd1 Hd2]].
    - rewrite Z.pow_0_r, !Z.div_1_r. assert (2 ^ lr <= 2 ^ 12)%Z by (apply Z.pow_le_mono_r; lia). lia.
    - pose proof (div_range mx mn lr d ltac:(lia) Hxy Hrl). assert (2 ^ (lr - d) <= 2 ^ 11)%Z by (apply Z.pow_le_mono_r; lia). lia. }
  assert (Enb : Z.to_nat (convert uint32 (convert uint32 (mx / 2 ^ d - mn / 2 ^ d) + 1)) = Z.to_nat (mx / 2 ^ d - mn / 2 ^ d + 1)).
  { f_equal. unfold convert, uint32. cbn [signed bits]. rewrite (Z.mod_small (mx / 2 ^ d - mn / 2 ^ d)) by lia. apply Z.mod_small. lia. }
  rewrite Enb. set (nb := Z.to_nat (mx / 2 ^ d - mn / 2 ^ d + 1)). set (dm := (mn / 2 ^ d)%Z).
  assert (Hbr : forall z, In z xs -> (0 <= key z / 2 ^ d - dm < Z.of_nat nb)%Z).
  { intros z Hz. pose proof (HM z Hz). unfold nb, dm. split; [apply HDR; auto; lia|]. assert (key z / 2 ^ d <= mx / 2 ^ d)%Z by (apply Z.div_le_mono; lia). lia. }
  assert (Hbin : forall z m1, In z xs -> bin_of t (fun x => cast (proj x)) d dm z m1 = Ok (pb d dm z) m1).
  { intros z m1 Hz. pose proof (Hbr z Hz). assert (W : wp (bin_of t (fun x => cast (proj x)) d dm z) (fun r m2 => r = pb d dm z /\ m2 = m1) m1).
    { unfold bin_of. wstep. apply Hsh. wstep. rewrite (arith_ok t freal). 2:{ rewrite fpromoted. apply ffits. assert (Z.of_nat nb = mx / 2 ^ d - mn / 2 ^ d + 1)%Z by (unfold nb; lia). lia. }
      apply wp_ret. destruct (Z.ltb_spec (key z / 2 ^ d - dm) 0); [lia|]. now apply wp_ret. }
    apply wp_ok in W as (r & m2 & E & -> & ->). exact E. }
  assert (HPB : forall z, In z xs -> pb d dm z < nb). { intros z Hz. pose proof (Hbr z Hz). unfold pb. lia. }
  wstep. eapply wp_mono; [apply (count_bins_wp t (fun x => cast (proj x)) d dm nb (pb d dm) xs f Hbin HPB); auto; unfold nb, max_finishing_splits, max_splits; lia|]. intros v m' [-> ->].
  apply wp_ret. split; auto. split; [|split; [lia|split; [|split; [|split; auto]]]].
  - split; [lia|]. split; [unfold nb; lia|]. split; [unfold nb; lia|]. split; auto. split; auto. split; [exists y; split; auto; unfold dm; now rewrite Ey|exists x; split; auto; unfold nb, dm; rewrite Ex; lia].
  - intros a b Ha Hb k Hk Hab. pose proof (HM a Ha). pose proof (HM b Hb). assert (k < lr)%Z; [|lia]. apply rough_log_ge; lia.
  - intros H1000 Hw. pose proof (Hw x y Hxi Hyi). assert (lr <= 10)%Z by (apply rough_log_le; lia). assert (9 < rough_log_2_size (Z.of_nat (length xs)))%Z by (apply rough_log_ge; lia).
    unfold d, get_log_divisor, max_finishing_splits. destruct (Z.leb_spec (lr - rough_log_2_size (Z.of_nat (length xs))) 0); [|lia]. destruct (Z.leb_spec lr (max_splits + 1)) as [Hm|Hm]; [reflexivity|unfold max_splits in Hm; lia].
Qed.

Lemma pb_lt : forall d dm a b, (0 <= d)%Z -> (0 <= key a / 2 ^ d - dm)%Z -> (0 <= key b / 2 ^ d - dm)%Z -> pb d dm a < pb d dm b -> (key a < key b)%Z.
Proof. intros d dm a b Hd Ha Hb H. apply (div_lt _ _ d); [lia|]. unfold pb in H. lia. Qed.
Lemma pb_same : forall d dm a b, (0 <= d)%Z -> (0 <= key a / 2 ^ d - dm)%Z -> (0 <= key b / 2 ^ d - dm)%Z -> pb d dm a = pb d dm b -> (key a - key b < 2 ^ d)%Z.
Proof. intros d dm a b Hd Ha Hb H. apply (div_same _ _ d); [lia|]. unfold pb in H. lia. Qed.

(** What the recursive functions do on the elements that satisfy [P]. *)
Definition fsorts (P : A -> Prop) (L : Z) (rec : nat -> nat -> list (option nat) -> nat -> M A (list (option nat))) : Prop :=
  forall xs m f c off, (16 <= Z.of_nat (length xs))%Z -> Forall P xs -> fclose xs -> fwithin L xs -> seg m f xs -> off <= length c ->
    wp (rec f (f + length xs) c off) (fun c' m' => (exists ys, seg m' f ys /\ is_sorting_of lt xs ys /\ only (within f (length xs)) m m') /\
       length c <= length c' /\ firstn off c' = firstn off c) m.

Lemma sort_bins_in_wp : forall P d rec (sg : nat -> nat) (bin : A -> nat) nb xs ys f m0 cp mc, (0 < d)%Z -> fsorts P d rec -> (16 <= mc)%Z -> (forall x, In x xs -> bin x < nb) ->
  (forall x y, In x xs -> In y xs -> bin x = bin y -> (key x - key y < 2 ^ d)%Z) ->
  fclose xs -> Permutation xs ys -> blocked bin xs ys ->
  forall ps r c m (done : nat -> Prop), map sg ps = seq r (length ps) -> r + length ps <= nb -> (forall p, In p ps -> p < nb) -> (forall x, In x xs -> r <= bin x < r + length ps -> P x) ->
    length cp + nb <= length c -> firstn (length cp + nb) c = cp ++ map (fun p => Some (f + start bin xs (S (sg p)))) (seq 0 nb) ->
    sblocks lt nb bin xs ys f m0 done m ->
    wp (sort_bins_in proj branchless rec mc (map (fun p => length cp + p) ps) (length cp + nb) (f + start bin xs r) c)
      (fun '(e, c') m' => (e = f + start bin xs (r + length ps) /\ length c <= length c' /\ firstn (length cp + nb) c' = firstn (length cp + nb) c) /\
         sblocks lt nb bin xs ys f m0 (fun p => done p \/ r <= p < r + length ps) m') m.
Proof.
  intros P d rec sg bin nb xs ys f m0 cp mc Hd Hrec Hmc HB HW HC HP HBl. induction ps as [|u ps IH]; intros r c m done Hsg Hr Hps HPx Hlen Hc HS.
  - cbn [map sort_bins_in length]. apply wp_ret. rewrite Nat.add_0_r. split; auto. eapply sblocks_weaken; [|exact HS]. intros p Hp [|]; auto; lia.
  - cbn [map length] in *. rewrite <- cons_seq in Hsg. injection Hsg as Eu Hsg. cbn [sort_bins_in]. assert (Hu : u < nb) by (apply Hps; now left).
    assert (HN : forall c', firstn (length cp + nb) c' = firstn (length cp + nb) c -> nth_error c' (length cp + u) = Some (Some (f + start bin xs (S r)))).
    { intros c' H. assert (E : nth_error (firstn (length cp + nb) c') (length cp + u) = nth_error c' (length cp + u)) by (apply nth_firstn_lt; lia). rewrite <- E, H, Hc.
      rewrite nth_error_app2 by lia. replace (length cp + u - length cp) with u by lia. rewrite nth_map_seq by lia. now rewrite Eu. }
    wstep. unfold rd_init at 1. wstep. eapply wp_rd; [apply HN; auto|]. apply wp_ret. wstep.
    rewrite start_S. replace (f + (start bin xs r + cnt bin xs r) - (f + start bin xs r)) with (cnt bin xs r) by lia.
    eapply wp_mono.
    { apply (sblocks_step lt nb bin xs ys f m0 HB HP HBl done r m _ _ (fun c' => length c <= length c' /\ firstn (length cp + nb) c' = firstn (length cp + nb) c)); auto; [lia|].
      intros zs HSz HLz HIn. replace (f + (start bin xs r + cnt bin xs r)) with (f + start bin xs r + length zs) by lia. destruct (Nat.ltb_spec (cnt bin xs r) 2) as [H2|H2].
      - apply wp_ret. split; auto. exists zs. split; auto. split; [|apply only_refl]. split; auto. intros i j x y Hij Hx Hy. apply nth_lt in Hy. lia.
      - destruct (Z.ltb_spec (Z.of_nat (cnt bin xs r)) mc) as [H3|H3].
        + wstep. eapply (runs_seg (is_sorting_of lt) (pdq_sorter less proj true branchless)); [exact (pdq_sorts less proj flt_swo branchless)| |exact HSz|reflexivity|].
          * intros a b [H _]. now rewrite (Permutation_length H).
          * intros ws m' HR HS' HO'. apply wp_ret. split; auto. exists ws. auto.
        + eapply wp_mono; [apply Hrec; auto; [lia| | | ]|].
          * apply Forall_forall. intros z Hz. destruct (HIn z Hz) as [Z1 Z2]. apply HPx; auto. lia.
          * intros x y Hx Hy. apply HC; now apply HIn.
          * intros x y Hx Hy. destruct (HIn x Hx), (HIn y Hy). apply HW; auto. congruence.
          * cbv beta. intros c' m' (H1 & H4 & H5). auto. }
    cbv beta. intros c' m' ((HL' & HF') & HS'). wstep. unfold rd_init at 1. wstep. eapply wp_rd; [apply HN; congruence|]. apply wp_ret.
    rewrite <- (start_S bin xs r) || idtac.
    eapply wp_mono; [apply (IH (S r) c' m' (fun p => done p \/ p = r)); auto; try lia; try congruence|].
    + intros p Hp. apply Hps. now right.
    + intros x Hx Hb. apply HPx; auto. lia.
    + intros [e c2] m2 [(K0 & K1 & K2) K3]. replace (r + S (length ps)) with (S r + length ps) by lia. split; [split; auto; split; [lia|congruence]|].
      eapply sblocks_weaken; [|exact K3]. intros p Hp [H|H]; auto. destruct (Nat.eq_dec p r); auto. right. lia.
Qed.

Lemma grow : forall (c : list (option nat)) off nb, off <= length c -> exists cq h, c ++ repeat None (off + nb - length c) = sect (firstn off c) cq nb h /\ length c <= length (sect (firstn off c) cq nb h).
Proof.
  intros c off nb Hoff. set (c2 := c ++ repeat None (off + nb - length c)). assert (H2 : off + nb <= length c2) by (unfold c2; rewrite app_length, repeat_length; lia).
  exists (skipn (off + nb) c2), (fun p => nth p (skipn off c2) None). assert (E : c2 = sect (firstn off c) (skipn (off + nb) c2) nb (fun p => nth p (skipn off c2) None)).
  { unfold sect. rewrite <- (firstn_skipn off c2) at 1. f_equal.
    - unfold c2. rewrite firstn_app. replace (off - length c) with 0 by lia. cbn [firstn]. now rewrite app_nil_r.
    - rewrite <- (firstn_skipn nb (skipn off c2)) at 1. rewrite skipn_skipn. f_equal. apply nth_ext. intros k. destruct (Nat.lt_ge_cases k nb) as [Hk|Hk].
      + rewrite nth_map_seq by auto. rewrite nth_firstn_lt by auto. apply nth_error_nth'. rewrite skipn_length. lia.
      + transitivity (@None (option nat)); [|symmetry]; apply nth_error_None; [rewrite firstn_length|rewrite map_length, seq_length]; lia. }
  rewrite <- E. split; auto. unfold c2. rewrite app_length. lia.
Qed.
Lemma sect_firstn : forall (cp cq : list (option nat)) nb h, firstn (length cp + nb) (sect cp cq nb h) = cp ++ map h (seq 0 nb).
Proof. intros. unfold sect. rewrite app_assoc, firstn_app, app_length, map_length, seq_length, Nat.sub_diag, firstn_all2 by (rewrite app_length, map_length, seq_length; lia). cbn [firstn]. apply app_nil_r. Qed.
Lemma sect_firstn_cp : forall (cp cq : list (option nat)) nb h, firstn (length cp) (sect cp cq nb h) = cp.
Proof. intros. unfold sect. rewrite firstn_app, Nat.sub_diag, firstn_all. cbn [firstn]. apply app_nil_r. Qed.

Definition nonneg (x : A) : Prop := (0 <= key x)%Z.
Definition neg (x : A) : Prop := (key x < 0)%Z.

(** The last step of the functions: the elements are in the regions of their bins. *)
Lemma blocks_finish : forall (P : A -> Prop) rec (sg : nat -> nat) (bin : A -> nat) nb xs ys f m0 m d cp cq off c order,
  (0 <= d <= 64)%Z -> ((0 < d)%Z -> fsorts P d rec) -> (forall x, In x xs -> bin x < nb) -> Forall P xs ->
  (forall x y, In x xs -> In y xs -> bin x < bin y -> lt y x = false) -> (forall x y, In x xs -> In y xs -> bin x = bin y -> (key x - key y < 2 ^ d)%Z) ->
  (forall x y, In x xs -> In y xs -> key x = key y -> lt x y = false) ->
  fclose xs -> Permutation xs ys -> blocked bin xs ys -> seg m f ys -> only (within f (length xs)) m0 m -> cp = firstn off c -> length cp = off -> length c <= length cp + nb + length cq ->
  map sg order = seq 0 nb -> length order = nb -> (forall p, In p order -> p < nb) ->
  wp (if (d =? 0)%Z then ret (sect cp cq nb (fun p => Some (f + start bin xs (S (sg p))))) else
      let* (_, cache) := sort_bins_in proj branchless rec (float_min_count d) (map (fun p => length cp + p) order) (length cp + nb) f (sect cp cq nb (fun p => Some (f + start bin xs (S (sg p))))) in ret cache)
    (fun c' m' => (exists ys, seg m' f ys /\ is_sorting_of lt xs ys /\ only (within f (length xs)) m0 m') /\ length c <= length c' /\ firstn off c' = firstn off c) m.
Proof.
  intros P rec sg bin nb xs ys f m0 m d cp cq off c order Hd Hrec HB HPx HO HE HQ HC HP HBl HS HOn Ecp Hcp Hlc Hsg Hlo Hord.
  destruct (Z.eqb_spec d 0) as [E0|E0].
  - apply wp_ret. split; [|split; [rewrite sect_len; lia|]].
    + apply (sblocks_sorted lt nb bin xs ys f m0 HB HO HP HBl (fun p => p < nb)); auto. apply sblocks_init; auto. intros p Hp a b z w Hab Hz Hw.
      apply nth_error_In in Hz, Hw. destruct (sreg_in nb bin xs ys HB HP HBl p z Hz) as [Z1 Z2]. destruct (sreg_in nb bin xs ys HB HP HBl p w Hw) as [W1 W2].
      apply HQ; auto. assert (key z - key w < 2 ^ d)%Z by (apply HE; auto; congruence). assert (key w - key z < 2 ^ d)%Z by (apply HE; auto; congruence). rewrite E0, Z.pow_0_r in *. lia.
    + rewrite <- Hcp at 1. rewrite sect_firstn_cp. auto.
  - wstep. replace f with (f + start bin xs 0) at 1 by (cbn [start]; lia).
    eapply wp_mono; [apply (sort_bins_in_wp P d rec sg bin nb xs ys f m0 cp (float_min_count d)) with (done := fun _ => False); auto; try lia|].
    + apply Hrec. lia.
    + apply float_min_count_ge. lia.
    + now rewrite Hlo.
    + rewrite Forall_forall in HPx. auto.
    + rewrite sect_len. lia.
    + apply sect_firstn.
    + apply sblocks_init; auto. intros p [].
    + cbv beta. intros [e c2] m2 [(K0 & K1 & K2) K3]. apply wp_ret. rewrite sect_len in K1. split; [|split; [lia|]].
      * apply (sblocks_sorted lt nb bin xs ys f m0 HB HO HP HBl (fun p => False \/ 0 <= p < 0 + length order)); auto. intros p Hp. right. lia.
      * replace (firstn off c2) with (firstn off (firstn (length cp + nb) c2)) by (rewrite firstn_firstn; f_equal; lia). rewrite K2. rewrite firstn_firstn. replace (Nat.min off (length cp + nb)) with (length cp) by lia. now rewrite sect_firstn_cp.
Qed.

Lemma same_key : forall x y, key x = key y -> lt x y = false.
Proof. intros x y E. rewrite lt_sm. rewrite !sm_cast, E. apply Z.ltb_irrefl. Qed.

Lemma positive_sorts : forall fuel L, (0 <= L < Z.of_nat fuel)%Z -> (L <= 64)%Z -> fsorts nonneg L (positive_float_sort_rec proj branchless fuel).
Proof.
  induction fuel as [|fuel IH]; intros L HL HL64; [lia|]. intros xs m f c off Hn HPx HC HW HS Hoff. cbn [positive_float_sort_rec]. wstep. eapply wp_mono; [apply (prepare_wp xs m f c off L); auto; lia|].
  intros r m' [-> Hr]. destruct r as [[[[[d dm] nb] v] c']|]; [|apply wp_ret; split; auto; exists xs; split; auto; split; [split; auto|apply only_refl]].
  destruct Hr as ((Hd & Hnb & _ & Hbin & Hbr & _) & HdL & _ & _ & -> & ->). assert (HB : forall z, In z xs -> pb d dm z < nb). { intros z Hz. pose proof (Hbr z Hz). unfold pb. lia. }
  destruct (grow c off nb Hoff) as (cq & h & -> & Hlc). rewrite sect_len in Hlc. set (cp := firstn off c) in *. assert (Hcp : length cp = off) by (unfold cp; rewrite firstn_length; lia).
  wstep. rewrite <- Hcp at 1. eapply wp_mono; [apply (assign_bins_wp t (fun x => cast (proj x)) d dm nb (pb d dm) xs f cp cq Hbin); auto|]. intros c1 m' [-> ->].
  wstep. rewrite <- Hcp at 1. eapply wp_mono; [apply (fill_bins_wp t (fun x => cast (proj x)) d dm nb (pb d dm) xs f m cp cq Hbin HB m Hnb eq_refl HS)|]. intros c1 m' (-> & ys & (HS' & HP & HOn) & HBl).
  rewrite Forall_forall in HPx.
  replace (seq off nb) with (map (fun p => length cp + p) (seq 0 nb)).
  2:{ rewrite Hcp. clear. apply nth_ext. intros i. destruct (Nat.lt_ge_cases i nb) as [H|H]; [rewrite nth_map_seq by auto; rewrite (nth_error_nth' _ 0) by (rewrite seq_length; lia); rewrite seq_nth by lia; reflexivity|].
      transitivity (@None nat); [|symmetry]; apply nth_error_None; rewrite ?map_length, seq_length; lia. }
  rewrite <- Hcp at 1. eapply (blocks_finish nonneg _ (fun p => p)); eauto; try lia.
  - intros Hd0. apply IH; lia.
  - now apply Forall_forall.
  - intros x y Hx Hy Hlt. pose proof (Hbr x Hx). pose proof (Hbr y Hy). apply pb_lt in Hlt; try lia. unfold by_proj. rewrite less_pos by (now apply HPx). apply Z.ltb_ge. lia.
  - intros x y Hx Hy. pose proof (Hbr x Hx). pose proof (Hbr y Hy). apply pb_same; lia.
  - intros x y _ _. apply same_key.
  - apply map_id.
  - apply seq_length.
  - intros p Hp. apply in_seq in Hp. lia.
Qed.

Lemma rev_seq_map : forall n, map (fun p => n - 1 - p) (rev (seq 0 n)) = seq 0 n.
Proof.
  intros n. apply nth_ext. intros i. destruct (Nat.lt_ge_cases i n) as [H|H].
  - rewrite nth_error_map. rewrite (nth_error_nth' _ 0) by (rewrite rev_length, seq_length; lia). rewrite rev_nth by (rewrite seq_length; lia). rewrite seq_length, seq_nth by lia. cbn [option_map].
    rewrite (nth_error_nth' _ 0) by (rewrite seq_length; lia). rewrite seq_nth by lia. f_equal. lia.
  - transitivity (@None nat); [|symmetry]; apply nth_error_None; rewrite ?map_length, ?rev_length, seq_length; lia.
Qed.
Lemma seq_shift_map : forall a n, seq a n = map (fun p => a + p) (seq 0 n).
Proof.
  intros a n. apply nth_ext. intros i. destruct (Nat.lt_ge_cases i n) as [H|H]; [rewrite nth_map_seq by auto; rewrite (nth_error_nth' _ 0) by (rewrite seq_length; lia); rewrite seq_nth by lia; reflexivity|].
  transitivity (@None nat); [|symmetry]; apply nth_error_None; rewrite ?map_length, seq_length; lia.
Qed.

Lemma negative_sorts : forall fuel L, (0 <= L < Z.of_nat fuel)%Z -> (L <= 64)%Z -> fsorts neg L (negative_float_sort_rec proj branchless fuel).
Proof.
  induction fuel as [|fuel IH]; intros L HL HL64; [lia|]. intros xs m f c off Hn HPx HC HW HS Hoff. cbn [negative_float_sort_rec]. wstep. eapply wp_mono; [apply (prepare_wp xs m f c off L); auto; lia|].
  intros r m' [-> Hr]. destruct r as [[[[[d dm] nb] v] c']|]; [|apply wp_ret; split; auto; exists xs; split; auto; split; [split; auto|apply only_refl]].
  destruct Hr as ((Hd & Hnb & _ & Hbin & Hbr & _) & HdL & _ & _ & -> & ->). assert (HB : forall z, In z xs -> pb d dm z < nb). { intros z Hz. pose proof (Hbr z Hz). unfold pb. lia. }
  destruct (grow c off nb Hoff) as (cq & h & -> & Hlc). rewrite sect_len in Hlc. set (cp := firstn off c) in *. assert (Hcp : length cp = off) by (unfold cp; rewrite firstn_length; lia).
  set (sg := fun p => nb - 1 - p). assert (Hs1 : forall p, p < nb -> sg p < nb) by (intros p Hp; unfold sg; lia). assert (Hs2 : forall p q, p < nb -> q < nb -> sg p = sg q -> p = q) by (intros p q Hp Hq; unfold sg; lia).
  assert (Hs3 : forall p, p < nb -> sg p = nb - 1 - p) by (intros; reflexivity).
  wstep. rewrite <- Hcp at 1. eapply wp_mono; [apply (assign_reversed_wp proj d dm nb (pb d dm) sg xs f cp cq Hbin HB Hs1 Hs2); auto|]. intros c1 m' [-> ->].
  wstep. rewrite <- Hcp at 1. eapply wp_mono; [apply (fill_reversed_wp proj d dm nb (pb d dm) sg xs f m cp cq Hbin HB Hs1 Hs2 m Hnb Hs3 eq_refl HS)|]. intros c1 m' (-> & ys & (HS' & HP & HOn) & HBl).
  rewrite Forall_forall in HPx. rewrite (seq_shift_map off nb), <- map_rev. replace (fun p => off + p) with (fun p => length cp + p) by (now rewrite Hcp). replace (off + nb) with (length cp + nb) by lia. eapply (blocks_finish neg _ sg (SpreadFill.bin (pb d dm) sg)); eauto; try lia.
  - intros Hd0. apply IH; lia.
  - now apply Forall_forall.
  - intros x y Hx Hy Hlt. pose proof (Hbr x Hx). pose proof (Hbr y Hy). assert (Hyx : pb d dm y < pb d dm x) by (unfold SpreadFill.bin, sg in Hlt; lia).
    apply pb_lt in Hyx; try lia. unfold by_proj. rewrite less_neg by (now apply HPx). apply Z.ltb_ge. lia.
  - intros x y Hx Hy Hb. pose proof (Hbr x Hx). pose proof (Hbr y Hy). apply (pb_same d dm); try lia. apply Hs2; auto.
  - intros x y _ _. apply same_key.
  - apply rev_seq_map.
  - rewrite rev_length. apply seq_length.
  - intros p Hp. apply in_rev in Hp. apply in_seq in Hp. lia.
Qed.

(** * The whole range *)
Lemma first_positive_wp : forall xs d dm nb m, (0 <= d)%Z -> (Z.of_nat nb <= 2 ^ 12)%Z -> (forall x, In x xs -> 0 <= key x / 2 ^ d - dm < Z.of_nat nb)%Z -> (dm < 0 -> - dm < 2 ^ 32 /\ - dm < 2 ^ (width fmt - 1))%Z ->
  wp (first_positive_bin (A := A) (fmt := fmt) dm) (fun r m' => m' = m /\ forall x, In x xs -> (pb d dm x < (if (Z.of_nat nb <? r)%Z then nb else Z.to_nat r) <-> (key x < 0)%Z)) m.
Proof.
  intros xs d dm nb m Hd Hnb Hbr Hdm. assert (HP2 : (0 < 2 ^ d)%Z) by (apply Z.pow_pos_nonneg; lia).
  assert (Hneg : forall x, (key x < 0 <-> key x / 2 ^ d < 0)%Z). { intros x. split; intros H; [apply Z.div_lt_upper_bound; lia|]. destruct (Z.lt_ge_cases (key x) 0); auto. assert (0 <= key x / 2 ^ d)%Z by (apply Z.div_pos; lia). lia. }
  unfold first_positive_bin. destruct (Z.ltb_spec dm 0) as [H|H].
  - destruct (Hdm H) as [H1 H2]. wstep. rewrite (arith_ok t freal) by (rewrite fpromoted; apply ffits; lia). apply wp_ret. apply wp_ret. split; auto. intros x Hx. specialize (Hbr x Hx). rewrite Hneg.
    unfold convert, uint32. cbn [signed bits]. rewrite Z.mod_small by lia. unfold pb. destruct (Z.ltb_spec (Z.of_nat nb) (- dm)); lia.
  - apply wp_ret. split; auto. intros x Hx. specialize (Hbr x Hx). rewrite Hneg. unfold pb. destruct (Z.ltb_spec (Z.of_nat nb) 0); lia.
Qed.

(** A distance between the representations that makes the bins large enough. *)
Definition gap : Z := if (width fmt =? 32)%Z then 12%Z else 42%Z.
Definition usable (xs : list A) : Prop := length xs < min_sort_size \/
  fclose xs /\ ((exists x, In x xs /\ (0 <= key x)%Z) \/ (exists x y, In x xs /\ In y xs /\ (2 ^ gap <= key x - key y)%Z) \/ (width fmt = 32%Z /\ forall x, In x xs -> (key x <> - 2 ^ 31)%Z)).

Lemma sort_rec_wp : forall xs m f, (1000 <= Z.of_nat (length xs))%Z -> fclose xs ->
  ((exists x, In x xs /\ (0 <= key x)%Z) \/ (exists x y, In x xs /\ In y xs /\ (2 ^ gap <= key x - key y)%Z) \/ (width fmt = 32%Z /\ forall x, In x xs -> (key x <> - 2 ^ 31)%Z)) -> seg m f xs ->
  wp (float_sort_rec proj branchless (S 64) f (f + length xs)) (fun _ m' => exists ys, seg m' f ys /\ is_sorting_of lt xs ys /\ only (within f (length xs)) m m') m.
Proof.
  intros xs m f Hn HC HU HS. pose proof fbits as Hfb. unfold float_sort_rec. wstep. eapply wp_mono; [apply (prepare_wp xs m f [] 0 64); auto; try lia|].
  { intros x y Hx Hy. pose proof (HC x y Hx Hy). assert (2 ^ (width fmt - 1) <= 2 ^ 64)%Z by (apply Z.pow_le_mono_r; lia). lia. }
  intros r m' [-> Hr]. destruct r as [[[[[d dm] nb] v] c']|]; [|apply wp_ret; exists xs; split; auto; split; [split; auto|apply only_refl]].
  destruct Hr as ((Hd & Hnb & Hnb12 & Hbin & Hbr & (y & Hyi & Ey) & (x & Hxi & Ex)) & _ & Hgap & _ & -> & ->). assert (HB : forall z, In z xs -> pb d dm z < nb). { intros z Hz. pose proof (Hbr z Hz). unfold pb. lia. }
  assert (HP2 : (0 < 2 ^ d)%Z) by (apply Z.pow_pos_nonneg; lia).
  assert (Hdm : (dm < 0 -> - dm < 2 ^ 32 /\ - dm < 2 ^ (width fmt - 1))%Z).
  { intros Hneg. assert (HW31 : (2 ^ 31 <= 2 ^ (width fmt - 1))%Z) by (apply Z.pow_le_mono_r; lia). destruct HU as [(z & Hz & Hz0)|[(a & b & Ha & Hb & Hab)|[Hw Hnz]]].
    - assert (0 <= key z / 2 ^ d)%Z by (apply Z.div_pos; lia). pose proof (Hbr z Hz). lia.
    - pose proof (cast_range (proj y)) as HY. assert (Hg : (gap - 10 <= d)%Z) by (apply (Hgap a b Ha Hb); auto; unfold gap; destruct (_ =? _)%Z; lia).
      assert (Hlow : (- 2 ^ (width fmt - 1 - (gap - 10)) <= dm)%Z).
      { rewrite Ey. apply Z.div_le_lower_bound; auto. assert (Hgw : (10 <= gap <= width fmt)%Z) by (unfold gap; destruct Hfb as [E|E]; rewrite E; cbn; lia). assert (E : (2 ^ d * 2 ^ (width fmt - 1 - (gap - 10)) = 2 ^ (d + (width fmt - 1 - (gap - 10))))%Z) by (rewrite Z.pow_add_r; auto; lia).
        rewrite Z.mul_opp_r, E. assert (2 ^ (width fmt - 1) <= 2 ^ (d + (width fmt - 1 - (gap - 10))))%Z by (apply Z.pow_le_mono_r; lia). lia. }
      unfold gap in Hlow. destruct Hfb as [E|E]; rewrite E in *; cbn [Z.eqb Pos.eqb] in Hlow; [change (2 ^ (32 - 1 - (12 - 10)))%Z with (2 ^ 29)%Z in Hlow|change (2 ^ (64 - 1 - (42 - 10)))%Z with (2 ^ 31)%Z in Hlow; change (2 ^ (64 - 1))%Z with (2 ^ 63)%Z]; lia.
    - pose proof (cast_range (proj y)) as HY. pose proof (Hnz y Hyi). rewrite Hw in *. change (32 - 1)%Z with 31%Z in *. assert (key y <= dm)%Z.
      { rewrite Ey. apply Z.div_le_lower_bound; auto. assert (key y < 0)%Z. { destruct (Z.lt_ge_cases (key y) 0); auto. assert (0 <= key y / 2 ^ d)%Z by (apply Z.div_pos; lia). lia. } nia. }
      lia. }
  wstep. eapply wp_mono; [apply (first_positive_wp xs d dm nb m); auto; try lia|]. intros r m' [-> Hfp0]. set (fp := if (Z.of_nat nb <? r)%Z then nb else Z.to_nat r) in *. assert (Hfp : fp <= nb) by (unfold fp; destruct (Z.ltb_spec (Z.of_nat nb) r); lia). clearbody fp. cbv zeta.
  destruct (grow [] 0 nb (Nat.le_0_l _)) as (cq & h & -> & _). cbn [firstn].
  wstep. eapply wp_mono; [apply (assign_ends_wp proj d dm nb fp (pb d dm) xs f m cq Hbin HB Hfp Hnb)|]. intros [v c1] m' (-> & -> & ->).
  wstep. eapply wp_mono; [apply (fill_ends_wp proj d dm nb fp (pb d dm) xs f m cq Hbin HB Hfp Hnb m eq_refl HS)|]. intros c1 m' (-> & ys & (HS' & HP & HOn) & HBl).
  set (sgf := SpreadFill.sg fp) in *. set (bin := SpreadFill.bin (pb d dm) sgf) in *.
  assert (HBb : forall z, In z xs -> bin z < nb). { intros z Hz. apply (sg_range proj d dm nb fp (pb d dm) xs m Hbin Hfp Hnb); auto. }
  assert (Hbn : forall z, In z xs -> (bin z < fp <-> pb d dm z < fp)). { intros z Hz. unfold bin, SpreadFill.bin, sgf, SpreadFill.sg. destruct (Nat.ltb_spec (pb d dm z) fp); lia. }
  assert (HO : forall a b, In a xs -> In b xs -> bin a < bin b -> lt b a = false).
  { intros a b Ha Hb Hlt. pose proof (Hbr a Ha). pose proof (Hbr b Hb). pose proof (Hfp0 a Ha) as Fa. pose proof (Hfp0 b Hb) as Fb. unfold by_proj. unfold bin, SpreadFill.bin, sgf, SpreadFill.sg in Hlt.
    destruct (Nat.ltb_spec (pb d dm a) fp) as [La|La]; destruct (Nat.ltb_spec (pb d dm b) fp) as [Lb|Lb].
    - assert (Hba : pb d dm b < pb d dm a) by lia. apply pb_lt in Hba; try lia. rewrite less_neg by (try apply Fa; try apply Fb; auto). apply Z.ltb_ge. lia.
    - apply less_sign; [now apply Fa|]. destruct (Z.lt_ge_cases (key b) 0) as [L|L]; auto. apply Fb in L. lia.
    - lia.
    - apply pb_lt in Hlt; try lia. assert (0 <= key a)%Z. { destruct (Z.lt_ge_cases (key a) 0) as [L|L]; auto. apply Fa in L. lia. } rewrite less_pos by lia. apply Z.ltb_ge. lia. }
  assert (HE : forall a b, In a xs -> In b xs -> bin a = bin b -> (key a - key b < 2 ^ d)%Z).
  { intros a b Ha Hb Hab. pose proof (Hbr a Ha). pose proof (Hbr b Hb). apply (pb_same d dm); try lia. apply (sg_inj proj d dm nb fp (pb d dm) xs m Hbin Hfp Hnb); auto. }
  destruct (Z.eqb_spec d 0) as [E0|E0].
  - apply wp_ret. apply (sblocks_sorted lt nb bin xs ys f m HBb HO HP HBl (fun p => p < nb)); auto. apply sblocks_init; auto. intros p Hp a b z w Hab Hz Hw.
    apply nth_error_In in Hz, Hw. destruct (sreg_in nb bin xs ys HBb HP HBl p z Hz) as [Z1 Z2]. destruct (sreg_in nb bin xs ys HBb HP HBl p w Hw) as [W1 W2].
    apply same_key. assert (key z - key w < 2 ^ d)%Z by (apply HE; auto; congruence). assert (key w - key z < 2 ^ d)%Z by (apply HE; auto; congruence). rewrite E0, Z.pow_0_r in *. lia.
  - set (c1 := sect [] cq nb (fun p => Some (f + start bin xs (S (sgf p))))). assert (Hl1 : 0 + nb <= length c1) by (unfold c1; rewrite sect_len; cbn [length]; lia).
    assert (Hc1 : firstn (0 + nb) c1 = map (fun p => Some (f + start bin xs (S (sgf p)))) (seq 0 nb)) by exact (sect_firstn [] cq nb _).
    wstep. replace f with (f + start bin xs 0) at 1 by (cbn [start]; lia). replace (rev (seq 0 fp)) with (map (fun p => length (@nil (option nat)) + p) (rev (seq 0 fp))) by apply map_id.
    assert (Elen : length (rev (seq 0 fp)) = fp) by (rewrite rev_length; apply seq_length).
    eapply wp_mono; [apply (sort_bins_in_wp neg d (negative_float_sort_rec proj branchless (S 64)) sgf bin nb xs ys f m [] (float_min_count d)) with (r := 0) (done := fun _ => False); auto; try lia|].
    + apply negative_sorts; lia.
    + apply float_min_count_ge. lia.
    + rewrite Elen. rewrite <- (rev_seq_map fp) at 2. apply map_ext_in. intros p Hp. apply in_rev in Hp. apply in_seq in Hp. apply (sg_lt proj d dm nb fp (pb d dm) xs m Hbin Hfp Hnb). lia.
    + intros p Hp. apply in_rev in Hp. apply in_seq in Hp. lia.
    + intros z Hz Hb. apply Hfp0; auto. apply Hbn; auto. lia.
    + apply sblocks_init; auto. intros p [].
    + rewrite Elen. intros [e c2] m2 [(-> & K1 & K2) K3]. cbn [plus] in *.
      wstep. rewrite (seq_shift_map fp (nb - fp)) || idtac. replace (map (fun p => fp + p) (seq 0 (nb - fp))) with (map (fun p => length (@nil (option nat)) + p) (seq fp (nb - fp))).
      2:{ cbn [length plus]. rewrite map_id. apply seq_shift_map. }
      eapply wp_mono; [apply (sort_bins_in_wp nonneg d (positive_float_sort_rec proj branchless (S 64)) sgf bin nb xs ys f m [] (float_min_count d)) with (r := fp) (done := fun p => False \/ 0 <= p < fp); auto; try lia|].
      * apply positive_sorts; lia.
      * apply float_min_count_ge. lia.
      * rewrite seq_length. rewrite <- (map_id (seq fp (nb - fp))) at 2. apply map_ext_in. intros p Hp. apply in_seq in Hp. apply (sg_ge proj d dm nb fp (pb d dm) xs m Hbin Hfp Hnb). lia.
      * rewrite seq_length. lia.
      * intros p Hp. apply in_seq in Hp. lia.
      * intros z Hz Hb. unfold nonneg. destruct (Z.lt_ge_cases (key z) 0) as [L|L]; auto. apply Hfp0 in L; auto. apply Hbn in L; auto. lia.
      * cbn [length plus]. lia.
      * exact (eq_trans K2 Hc1).
      * intros [e2 c3] m3 [_ K5]. apply wp_ret. rewrite seq_length in K5. eapply (sblocks_sorted lt nb bin xs ys f m HBb HO HP HBl); [|exact K5]. intros p Hp. destruct (Nat.lt_ge_cases p fp); [left; right; lia|right; lia].
Qed.

Theorem float_spread_sorts : sorts_when usable lt (float_spread_sorter proj branchless).
Proof.
  intros pre xs post HU. apply wp_run_sorts. unfold float_spread_sorter. replace (length pre + length xs - length pre) with (length xs) by lia. destruct (Nat.ltb_spec (length xs) min_sort_size) as [H|H].
  - eapply (runs_seg (is_sorting_of lt) (pdq_sorter less proj true branchless)); [exact (pdq_sorts less proj flt_swo branchless)| |apply seg_intro; reflexivity|reflexivity|].
    + intros a b [H2 _]. now rewrite (Permutation_length H2).
    + intros ws m' HR HS' HO'. exists ws. auto.
  - destruct HU as [HU|[HC HU]]; [lia|]. apply sort_rec_wp; auto; [unfold min_sort_size in H; lia|]. apply seg_intro. reflexivity.
Qed.

(** * What goes wrong *)
Lemma unsorted_extremes : forall xs m f, 1 <= length xs -> ~ sorted lt xs -> seg m f xs -> wp (float_extremes proj f (f + length xs)) (fun '(srt, mx, mn) m' => m' = m /\ srt = false /\
  (exists x, In x xs /\ key x = mx) /\ (exists y, In y xs /\ key y = mn) /\ forall z, In z xs -> (mn <= key z <= mx)%Z) m.
Proof.
  intros xs m f HL HN HS. eapply wp_mono; [apply float_extremes_wp; auto|]. intros [[srt mx] mn] m' (-> & H1 & H2). split; auto. split; auto. destruct srt; auto. destruct (HN (H1 eq_refl)).
Qed.

Theorem float_spread_overflow : forall pre xs post, 1000 <= length xs -> ~ sorted lt xs -> (exists x y, In x xs /\ In y xs /\ (2 ^ (width fmt - 1) <= key x - key y)%Z) ->
  float_spread_sorter proj branchless (length pre) (length pre + length xs) (pre ++ map Val xs ++ post) = UB.
Proof.
  intros pre xs post HL HN (x & y & Hx & Hy & HD). unfold float_spread_sorter. replace (length pre + length xs - length pre) with (length xs) by lia.
  destruct (Nat.ltb_spec (length xs) min_sort_size) as [H|H]. { unfold min_sort_size in H. lia. }
  apply ub_bind_l. unfold prepare. apply ub_bind. eapply wp_mono; [apply unsorted_extremes; auto; [lia|apply seg_intro; reflexivity]|]. intros [[srt mx] mn] m' (-> & -> & _ & _ & HM).
  apply ub_bind_l. unfold arith. change (signed (promoted t)) with true || rewrite fpromoted. cbn [signed div_type]. pose proof (HM x Hx). pose proof (HM y Hy).
  assert (E : fits (div_type fmt) (mx - mn) = false). { unfold fits. apply andb_false_iff. right. apply Z.leb_gt. unfold type_max. cbn [signed bits div_type]. lia. } now rewrite E.
Qed.

Lemma close_spread : forall xs, (forall x y, In x xs -> In y xs -> (key x - key y < 2 ^ 10)%Z) -> fclose xs.
Proof. intros xs H x y Hx Hy. specialize (H x y Hx Hy). pose proof fbits. assert (2 ^ 10 <= 2 ^ (width fmt - 1))%Z by (apply Z.pow_le_mono_r; lia). lia. Qed.

Lemma prepare_close : forall xs m f, 1000 <= length xs -> ~ sorted lt xs -> (forall x y, In x xs -> In y xs -> (key x - key y < 2 ^ 10)%Z) -> seg m f xs ->
  wp (prepare proj f (f + length xs) [] 0) (fun r m' => m' = m /\ exists dm nb, r = Some (0%Z, dm, nb, map (cnt (pb 0 dm) xs) (seq 0 nb), repeat None nb) /\ prepared xs 0 dm nb /\
    (exists y, In y xs /\ key y = dm) /\ forall z, In z xs -> (dm <= key z)%Z) m.
Proof.
  intros xs m f Hn HN HW HS. eapply wp_mono; [apply (prepare_wp xs m f [] 0 64); auto; try lia|].
  - now apply close_spread.
  - intros x y Hx Hy. specialize (HW x y Hx Hy). lia.
  - intros r m' [-> Hr]. split; auto. destruct r as [[[[[d dm] nb] v] c']|]; [|contradiction]. destruct Hr as (Hp & _ & _ & Hd & -> & ->). specialize (Hd ltac:(lia) HW). subst d.
    exists dm, nb. cbn [length app plus]. rewrite Nat.sub_0_r. split; auto. split; auto. destruct Hp as (_ & _ & _ & _ & Hbr & (y & Hy & Ey) & _). rewrite Z.pow_0_r, Z.div_1_r in Ey. split; [now exists y|].
    intros z Hz. specialize (Hbr z Hz). rewrite Z.pow_0_r, Z.div_1_r in Hbr. lia.
Qed.

Theorem float_spread_negation : forall pre xs post, 1000 <= length xs -> ~ sorted lt xs -> (forall x y, In x xs -> In y xs -> (key x - key y < 2 ^ 10)%Z) -> (exists x, In x xs /\ key x = - 2 ^ (width fmt - 1))%Z ->
  float_spread_sorter proj branchless (length pre) (length pre + length xs) (pre ++ map Val xs ++ post) = UB.
Proof.
  intros pre xs post HL HN HW (x & Hx & Ex). unfold float_spread_sorter. replace (length pre + length xs - length pre) with (length xs) by lia.
  destruct (Nat.ltb_spec (length xs) min_sort_size) as [H|H]. { unfold min_sort_size in H. lia. }
  apply ub_bind. eapply wp_mono; [apply prepare_close; auto; apply seg_intro; reflexivity|]. intros r m' (-> & dm & nb & -> & _ & (y & Hy & Ey) & HM).
  pose proof (HM x Hx). pose proof (cast_range (proj y)). pose proof fbits. assert (0 < 2 ^ (width fmt - 1))%Z by (apply Z.pow_pos_nonneg; lia).
  apply ub_bind_l. unfold first_positive_bin. destruct (Z.ltb_spec dm 0); [|lia]. apply ub_bind_l. unfold arith. rewrite fpromoted. cbn [signed div_type].
  assert (E : fits (div_type fmt) (- dm) = false). { unfold fits. apply andb_false_iff. right. apply Z.leb_gt. unfold type_max. cbn [signed bits div_type]. lia. } now rewrite E.
Qed.

Theorem float_spread_reverses : forall pre xs post, 1000 <= length xs -> ~ sorted lt xs -> (forall x y, In x xs -> In y xs -> (key x - key y < 2 ^ 10)%Z) -> (forall x, In x xs -> key x < 0)%Z ->
  (exists q, (exists x, In x xs /\ key x = q) /\ (forall x, In x xs -> q <= key x) /\ - 2 ^ (width fmt - 1) < q /\ q mod 2 ^ 32 = 0)%Z ->
  exists ys, float_spread_sorter proj branchless (length pre) (length pre + length xs) (pre ++ map Val xs ++ post) = Ok tt (pre ++ map Val ys ++ post) /\
    is_sorting_of (by_proj (fun a b => less b a) proj) xs ys.
Proof.
  intros pre xs post HL HN HW Hneg (q & (x & Hx & Ex) & Hq & Hlow & Hq0). apply (wp_run_sorts (fun a b => less b a) proj). unfold float_spread_sorter. replace (length pre + length xs - length pre) with (length xs) by lia.
  destruct (Nat.ltb_spec (length xs) min_sort_size) as [H|H]. { unfold min_sort_size in H. lia. } clear H.
  assert (HS : seg (pre ++ map Val xs ++ post) (length pre) xs) by (apply seg_intro; reflexivity). set (m := pre ++ map Val xs ++ post) in *. set (f := length pre) in *. clearbody m f.
  unfold float_sort_rec. wstep. eapply wp_mono; [apply prepare_close; auto|]. intros r m' (-> & dm & nb & -> & (_ & Hnb & Hnb12 & Hbin & Hbr & _) & (y & Hy & Ey) & HM).
  assert (E : dm = q) by (pose proof (HM x Hx); pose proof (Hq y Hy); lia). subst dm. rewrite E in *. clear E. pose proof (Hneg y Hy) as Hqn.
  assert (HB : forall z, In z xs -> pb 0 q z < nb). { intros z Hz. pose proof (Hbr z Hz). unfold pb. lia. }
  wstep. unfold first_positive_bin. destruct (Z.ltb_spec q 0); [|lia]. wstep. rewrite (arith_ok t freal) by (rewrite fpromoted; apply ffits; lia). apply wp_ret. apply wp_ret.
  replace (convert uint32 (- q)) with 0%Z. 2:{ unfold convert, uint32. cbn [signed bits]. rewrite Z.mod_opp_l_z; auto; lia. } cbv zeta. replace (if (Z.of_nat nb <? 0)%Z then nb else Z.to_nat 0) with 0 by (destruct (Z.ltb_spec (Z.of_nat nb) 0); [lia|reflexivity]).
  assert (Hfp : 0 <= nb) by lia.
  destruct (grow [] 0 nb (Nat.le_0_l _)) as (cq & h & E & _). cbn [length plus app firstn] in E. rewrite Nat.sub_0_r in E. rewrite E.
  wstep. eapply wp_mono; [apply (assign_ends_wp proj 0 q nb 0 (pb 0 q) xs f m cq Hbin HB Hfp Hnb)|]. intros [v c1] m' (-> & -> & ->).
  wstep. eapply wp_mono; [apply (fill_ends_wp proj 0 q nb 0 (pb 0 q) xs f m cq Hbin HB Hfp Hnb m eq_refl HS)|]. intros c1 m' (-> & ys & (HS' & HP & HOn) & HBl). cbn [Z.eqb]. apply wp_ret.
  set (bin := SpreadFill.bin (pb 0 q) (SpreadFill.sg 0)) in *. assert (Ebin : forall z, bin z = pb 0 q z) by reflexivity.
  assert (Hk : forall a b, In a xs -> In b xs -> bin a <= bin b -> by_proj (fun a b => less b a) proj b a = false).
  { intros a b Ha Hb Hab. rewrite (Ebin a), (Ebin b) in Hab. unfold pb in Hab. rewrite Z.pow_0_r, !Z.div_1_r in Hab. pose proof (HM a Ha). pose proof (HM b Hb). unfold by_proj. rewrite less_neg by (apply Hneg; auto). apply Z.ltb_ge. cbv beta in *. lia. }
  apply (sblocks_sorted (by_proj (fun a b => less b a) proj) nb bin xs ys f m) with (done := fun p => p < nb); auto.
  - intros a b Ha Hb Hab. apply Hk; auto. lia.
  - apply sblocks_init; auto. intros p Hp a b z w Hab Hz Hw. apply nth_error_In in Hz, Hw. destruct (sreg_in nb bin xs ys HB HP HBl p z Hz) as [Z1 Z2]. destruct (sreg_in nb bin xs ys HB HP HBl p w Hw) as [W1 W2]. apply Hk; auto. lia.
Qed.

(** * In terms of the bits *)
Local Notation bitsof x := (pattern (proj x)).
Local Notation half := (2 ^ (width fmt - 1))%Z.
Lemma key_bits : forall x : A, (0 <= bitsof x < 2 * half /\ key x = if half <=? bitsof x then bitsof x - 2 * half else bitsof x)%Z.
Proof.
  intros x. destruct (number_spec fmt (proj x)) as [X _]. assert (E : (2 * half = 2 ^ width fmt)%Z). { rewrite <- Z.pow_succ_r by (pose proof fbits; lia). f_equal. lia. } rewrite E. split; auto.
  rewrite cast_spec. unfold negative. replace (magnitude_bits fmt) with (width fmt - 1)%Z by (unfold width; lia). reflexivity.
Qed.
Lemma half_pos : (2 ^ 31 <= half)%Z. Proof. apply Z.pow_le_mono_r; pose proof fbits; lia. Qed.
Ltac bits_of x := let H1 := fresh in let H2 := fresh in destruct (key_bits x) as [H1 H2]; destruct (Z.leb_spec half (bitsof x)).

Lemma usable_bits : forall xs, length xs < min_sort_size \/
  (forall x y, In x xs -> In y xs -> bitsof x < half <= bitsof y -> bitsof x + half < bitsof y)%Z /\
  ((exists x, In x xs /\ bitsof x < half) \/ (exists x y, In x xs /\ In y xs /\ 2 ^ gap <= bitsof x - bitsof y) \/ (width fmt = 32 /\ forall x, In x xs -> bitsof x <> 2 ^ 31))%Z -> usable xs.
Proof.
  intros xs [H|[HC H]]; [now left|]. right. pose proof half_pos as Hh. split.
  - intros x y Hx Hy. specialize (HC x y Hx Hy). bits_of x; bits_of y; lia.
  - destruct H as [(x & Hx & H)|[(x & y & Hx & Hy & H)|[Hw H]]].
    + left. exists x. split; auto. bits_of x; lia.
    + bits_of y; [|left; exists y; split; auto; lia]. bits_of x; [|left; exists x; split; auto; lia]. right. left. exists x, y. split; auto. split; auto. lia.
    + right. right. split; auto. intros x Hx. specialize (H x Hx). assert (E : half = (2 ^ 31)%Z) by (now rewrite Hw). bits_of x; lia.
Qed.

Lemma overflow_bits : forall xs, (exists x y, In x xs /\ In y xs /\ bitsof x < half <= bitsof y /\ bitsof y <= bitsof x + half)%Z -> (exists x y, In x xs /\ In y xs /\ (half <= key x - key y)%Z).
Proof. intros xs (x & y & Hx & Hy & H1 & H2). exists x, y. split; auto. split; auto. pose proof half_pos. bits_of x; bits_of y; lia. Qed.

Lemma negative_bits : forall xs q, (half <= q)%Z -> (forall x, In x xs -> q <= bitsof x < q + 2 ^ 10)%Z ->
  (forall x, In x xs -> key x = bitsof x - 2 * half /\ key x < 0)%Z /\ forall x y, In x xs -> In y xs -> (key x - key y < 2 ^ 10)%Z.
Proof.
  intros xs q Hq H. assert (H1 : (forall x, In x xs -> key x = bitsof x - 2 * half /\ key x < 0)%Z). { intros x Hx. specialize (H x Hx). bits_of x; lia. }
  split; auto. intros x y Hx Hy. destruct (H1 x Hx), (H1 y Hy). specialize (H x Hx) as Ha. specialize (H y Hy) as Hb. lia.
Qed.
End Float.
