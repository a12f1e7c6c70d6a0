(** ska_sorter: the keys of type bool, the integral types, and the whole sorter. *)
From Coq Require Import List Arith NArith ZArith Lia Permutation Bool.
From Verif Require Import Spec.Order Lang.Mem Spec.Sorts Spec.Verge Proofs.Wp Proofs.OrderLib Model.Basic Proofs.Basic Proofs.Search Model.Quick Proofs.Quick Proofs.IndexLib Proofs.Regions Model.Counting Model.Ska Proofs.Ska.
Import ListNotations.
Local Open Scope nat_scope.

Section Partition.
Context {A : Type} (P : A -> bool) (pred : nat -> M A bool).
Notation is b := (fun x => P x = b).
Hypothesis HP : forall k m x, nth_error m k = Some (Val x) -> pred k m = Ok (P x) m.
Lemma wp_pred : forall k m x (Q : bool -> mem A -> Prop), nth_error m k = Some (Val x) -> Q (P x) m -> wp (pred k) Q m.
Proof. intros k m x Q Hk HQ. unfold wp. rewrite (HP _ _ _ Hk). auto. Qed.

Lemma scan_true_wp : forall l f m, f <= l -> full f l m ->
  forall (Q : (nat + nat) -> mem A -> Prop),
  (range_all (is true) f l m -> Q (inr l) m) ->
  (forall r x, f <= r < l -> range_all (is true) f r m -> nth_error m r = Some (Val x) -> P x = false -> Q (inl r) m) ->
  wp (loop (S (l - f)) (fun first =>
    if first =? l then ret (inr (inr first)) else
    let* c := pred first in
    if c then ret (inl (S first)) else ret (inr (inl first))) f) Q m.
Proof.
  intros l f m Hfl Hf Q Q1 Q2.
  apply wp_loop' with (I := fun i m' => m' = m /\ f <= i <= l /\ range_all (is true) f i m) (mu := fun i => l - i).
  - cj; auto; try lia. intros k a. lia.
  - lia.
  - intros i m' (-> & Hi & HR). destruct (Nat.eqb_spec i l) as [->|]; [apply wp_ret; auto|].
    apply wp_bind. rdv Hf i x Hx. eapply wp_pred; eauto. destruct (P x) eqn:E; apply wp_ret.
    + cj; auto; try lia. intros k a Hk Ha. destruct (Nat.eq_dec k i) as [->|]; [congruence|]. apply (HR k); auto; lia.
    + eapply Q2; eauto. lia.
Qed.

Lemma partition_bidirectional_wp : forall f l m, f <= l -> full f l m ->
  wp (partition_bidirectional pred f l) (fun r m' => parts P f l r m m') m.
Proof.
  intros f l m Hfl Hf. unfold partition_bidirectional.
  apply wp_loop' with (I := fun '(fi, la) m' => pm f l m m' /\ f <= fi <= la /\ la <= l /\ range_all (is true) f fi m' /\
      range_all (is false) la l m') (mu := fun '(fi, la) => la - fi).
  - cj; auto; try lia. { apply pm_refl. } all: intros k a; lia.
  - lia.
  - intros [fi la] m' (Hpm & Hfi & Hla & R1 & R2).
    assert (full f l m') as Hf' by (eapply pm_full; eauto).
    apply wp_bind. apply scan_true_wp; auto; [lia|eapply full_sub; eauto; lia| |].
    + intros HR. apply wp_ret. split; auto. cj; auto; try lia.
      intros k a Hk Ha. destruct (Nat.lt_ge_cases k fi). apply (R1 k); auto; lia. apply (HR k); auto; lia.
    + intros r x Hr HR Hx Hpx. apply wp_bind.
      assert (range_all (is true) f r m') as R1'.
      { intros k a Hk Ha. destruct (Nat.lt_ge_cases k fi). apply (R1 k); auto; lia. apply (HR k); auto; lia. }
      apply wp_loop' with (I := fun i m2 => m2 = m' /\ r < i <= la /\ range_all (is false) i l m') (mu := fun i => i - r).
      * cj; auto; try lia.
      * lia.
      * intros i m2 (-> & Hi & HR2). destruct (Nat.eqb_spec r (i - 1)) as [E|E].
        -- apply wp_ret. apply wp_ret. split; auto. cj; auto; try lia.
           intros k a Hk Ha. destruct (Nat.eq_dec k r) as [->|]; [congruence|]. apply (HR2 k); auto; lia.
        -- apply wp_bind. rdv Hf' (i - 1) y Hy. eapply wp_pred; eauto. destruct (P y) eqn:Ey; apply wp_ret.
           ++ apply wp_bind. eapply wp_swap_pm with (f := f) (l := l); eauto; try lia.
              intros m2 Hpm2 Hsw. apply wp_ret. cj; try lia.
              ** eapply pm_trans; eauto.
              ** intros k a Hk Ha. rewrite Hsw in Ha. destruct (Nat.eq_dec k r) as [->|].
                 { rewrite tr_l in Ha. congruence. } rewrite tr_o in Ha by lia. apply (R1' k); auto; lia.
              ** intros k a Hk Ha. rewrite Hsw in Ha. destruct (Nat.eq_dec k (i - 1)) as [->|].
                 { rewrite tr_r in Ha. congruence. } rewrite tr_o in Ha by lia. apply (HR2 k); auto; lia.
           ++ cj; auto; try lia. intros k a Hk Ha. destruct (Nat.eq_dec k (i - 1)) as [->|]; [congruence|].
              apply (HR2 k); auto; lia.
Qed.

End Partition.

(** The partition, on a segment. *)
Lemma partition_seg_wp : forall A (P : A -> bool) m f xs, seg m f xs ->
  wp (partition_bidirectional (fun i => let* x := get i in ret (P x)) f (f + length xs))
    (fun r m' => exists ys zs, r = f + length ys /\ seg m' f (ys ++ zs) /\ Permutation xs (ys ++ zs) /\ (forall x, In x ys -> P x = true) /\ (forall x, In x zs -> P x = false) /\
       only (within f (length xs)) m m') m.
Proof.
  intros A P m f xs HS. apply seg_decomp in HS as (pre & post & -> & <-). eapply wp_mono; [apply (partition_bidirectional_wp P)|].
  - intros k m x Hx. unfold bind, get. now rewrite Hx.
  - lia.
  - apply full_init.
  - intros r m' (HPm & Hr & R1 & R2). pose proof HPm as [HSO _]. apply pm_decomp in HPm as (ys & -> & HP). pose proof (Permutation_length HP) as HL.
    exists (firstn (r - length pre) ys), (skipn (r - length pre) ys). rewrite firstn_skipn. split; [rewrite firstn_length; lia|]. split; [now apply seg_intro|]. split; auto.
    assert (HM : forall i x, nth_error ys i = Some x -> nth_error (pre ++ map Val ys ++ post) (length pre + i) = Some (Val x)).
    { intros i x Hx. pose proof (nth_lt _ _ _ Hx). rewrite nth_pre_map_post by lia. now rewrite Hx. }
    split; [|split].
    + intros x Hx. apply In_nth_error in Hx as (i & Hi). pose proof (nth_lt _ _ _ Hi) as Hl. rewrite firstn_length in Hl. rewrite nth_firstn_lt in Hi by lia. apply (R1 (length pre + i)); [lia|]. now apply HM.
    + intros x Hx. apply In_nth_error in Hx as (i & Hi). rewrite nth_skipn in Hi. pose proof (nth_lt _ _ _ Hi) as Hl. apply (R2 (length pre + (r - length pre + i))); [lia|]. now apply HM.
    + destruct HSO as [H1 H2]. split; auto. intros i Hi. apply H2. unfold within in Hi. lia.
Qed.

Section Sorter.
Context {A T : Type} (less : T -> T -> bool) (proj : A -> T) (sub_key : T -> N) (branchless : bool) (std_thr am_thr bytes : nat).
Local Notation lt := (by_proj less proj).
Local Notation key x := (sub_key (proj x)).

(** A program that sorts a range. *)
Definition sorts_range (prog : M A unit) (f : nat) (xs : list A) m : Prop :=
  wp prog (fun _ m' => exists ys, seg m' f ys /\ is_sorting_of lt xs ys /\ only (within f (length xs)) m m') m.

(** Two neighbouring ranges, sorted one after the other. *)
Lemma sort_both : forall p1 p2 ys zs m f, seg m f (ys ++ zs) -> (forall x y, In x ys -> In y zs -> lt y x = false) ->
  (seg m f ys -> sorts_range p1 f ys m) -> (forall m', seg m' (f + length ys) zs -> sorts_range p2 (f + length ys) zs m') -> sorts_range (p1 ;; p2) f (ys ++ zs) m.
Proof.
  intros p1 p2 ys zs m f HS HL H1 H2. apply seg_app in HS as [S1 S2]. unfold sorts_range. wstep. eapply wp_mono; [now apply H1|]. intros u m1 (ys' & T1 & [P1 O1] & W1).
  eapply wp_mono; [apply (H2 m1)|].
  { eapply seg_only; [exact W1| |exact S2]. unfold within. intros. lia. }
  intros v m2 (zs' & T2 & [P2 O2] & W2). exists (ys' ++ zs'). pose proof (Permutation_length P1) as L1. split; [|split; [split|]].
  - apply seg_app. split; [|now rewrite <- L1]. eapply seg_only; [exact W2| |exact T1]. unfold within. intros. lia.
  - now apply Permutation_app.
  - apply sorted_app. split; auto. split; auto. intros x y Hx Hy. apply HL; (eapply Permutation_in; [symmetry; eassumption|auto]).
  - rewrite app_length. eapply only_trans; (eapply only_weaken; [eassumption|]); unfold within; intros; lia.
Qed.

Lemma wp_run_sorts : forall (prog : range_prog A) pre xs post, wp (prog (length pre) (length pre + length xs))
    (fun _ m' => exists ys, seg m' (length pre) ys /\ is_sorting_of lt xs ys /\ only (within (length pre) (length xs)) (pre ++ map Val xs ++ post) m') (pre ++ map Val xs ++ post) ->
  exists ys, prog (length pre) (length pre + length xs) (pre ++ map Val xs ++ post) = Ok tt (pre ++ map Val ys ++ post) /\ is_sorting_of lt xs ys.
Proof.
  intros prog pre xs post H. apply wp_ok in H as ([] & m' & E & ys & HS & HR' & HO). exists ys. split; auto. rewrite E. f_equal. apply seg_decomp in HS as (pre' & post' & -> & HL).
  destruct HR' as [HP _]. apply Permutation_length in HP. destruct HO as [HL' HO]. rewrite !app_length, !map_length in HL'.
  assert (pre' = pre) as ->.
  { apply nth_ext. intros i. destruct (Nat.lt_ge_cases i (length pre)) as [Hi|Hi].
    - specialize (HO i ltac:(unfold within; lia)). rewrite !nth_error_app1 in HO by lia. auto.
    - transitivity (@None (cell A)); [|symmetry]; apply nth_error_None; lia. }
  f_equal. f_equal. apply nth_ext. intros i. specialize (HO (length pre + length xs + i) ltac:(unfold within; lia)).
  rewrite !(nth_error_app2 pre) in HO by lia. rewrite !nth_error_app2 in HO by (rewrite map_length; lia). rewrite !map_length, <- HP in HO. replace (length pre + length xs + i - length pre - length xs) with i in HO by lia. auto.
Qed.

Hypothesis HC : strict_weak_order less.
Variable P : A -> Prop.

Lemma bool_sort_wp : forall next_sort, 
  (forall x y, P x -> P y -> less (proj x) (proj y) = true -> (key x <= key y)%N) -> (forall x, P x -> (key x < 2)%N) ->
  (next_sort = None -> forall x y, P x -> P y -> less (proj x) (proj y) = true -> key x <> key y) ->
  (forall sort, next_sort = Some sort -> forall xs m f, Forall P xs -> (forall x y, In x xs -> In y xs -> key x = key y) -> seg m f xs -> sorts_range (sort f (f + length xs) (length xs)) f xs m) ->
  forall xs m f, Forall P xs -> seg m f xs -> sorts_range (bool_inplace_sort proj sub_key next_sort f (f + length xs)) f xs m.
Proof.
  intros next_sort HK HR HE HNS xs m f HPx HS. unfold sorts_range, bool_inplace_sort. wstep. eapply wp_mono; [now apply (partition_seg_wp A (fun x => N.eqb (key x) 0))|].
  intros r m' (ys & zs & -> & S' & HP & Hy & Hz & HO). rewrite (Permutation_length HP), app_length in *.
  assert (HPy : forall x, In x ys -> P x) by (intros x Hx; rewrite Forall_forall in HPx; apply HPx; eapply Permutation_in; [symmetry; exact HP|apply in_or_app; auto]).
  assert (HPz : forall x, In x zs -> P x) by (intros x Hx; rewrite Forall_forall in HPx; apply HPx; eapply Permutation_in; [symmetry; exact HP|apply in_or_app; auto]).
  assert (Ky : forall x, In x ys -> key x = 0%N) by (intros x Hx; apply Hy in Hx; now apply N.eqb_eq).
  assert (Kz : forall x, In x zs -> key x = 1%N) by (intros x Hx; pose proof (HR x (HPz x Hx)); apply Hz in Hx; apply N.eqb_neq in Hx; lia).
  assert (HL : forall x y, In x ys -> In y zs -> lt y x = false).
  { intros x y Hx Hy'. unfold by_proj. destruct (less (proj y) (proj x)) eqn:E; auto. apply HK in E; auto. rewrite (Ky x Hx), (Kz y Hy') in E. lia. }
  assert (HG : sorts_range (match next_sort with Some sort => sort f (f + length ys) (f + length ys - f) ;; sort (f + length ys) (f + (length ys + length zs)) (f + (length ys + length zs) - (f + length ys)) | None => ret tt end) f (ys ++ zs) m').
  { destruct next_sort as [sort|].
    - apply sort_both; auto.
      + intros S1. replace (f + length ys - f) with (length ys) by lia. apply (HNS sort eq_refl); auto. { now apply Forall_forall. } intros x y Hx Hy'. now rewrite !Ky.
      + intros m2 S2. replace (f + (length ys + length zs) - (f + length ys)) with (length zs) by lia. replace (f + (length ys + length zs)) with (f + length ys + length zs) by lia. apply (HNS sort eq_refl); auto. { now apply Forall_forall. } intros x y Hx Hy'. now rewrite !Kz.
    - apply wp_ret. exists (ys ++ zs). split; auto. split; [split; auto|apply only_refl].
      apply sorted_app. split; [|split; auto].
      + intros i j x y Hij Hx Hy'. apply nth_error_In in Hx, Hy'. unfold by_proj. destruct (less (proj y) (proj x)) eqn:E; auto. apply (HE eq_refl) in E; auto. now rewrite !Ky in E.
      + intros i j x y Hij Hx Hy'. apply nth_error_In in Hx, Hy'. unfold by_proj. destruct (less (proj y) (proj x)) eqn:E; auto. apply (HE eq_refl) in E; auto. now rewrite !Kz in E. }
  eapply wp_mono; [exact HG|]. intros u m2 (ws & S2 & [P2 O2] & W2). exists ws. split; auto. split; [split; auto; now rewrite HP|]. rewrite app_length in W2. now apply only_trans with m'.
Qed.

Hypothesis HK : forall x y, P x -> P y -> less (proj x) (proj y) = true -> (key x < key y)%N.
Hypothesis HR : forall x, P x -> (key x < if (bytes =? 0)%nat then 2 else 256 ^ N.of_nat bytes)%N.

Lemma radix_sorts : sorts_when (Forall P) lt (inplace_radix_sort less proj sub_key branchless std_thr am_thr bytes).
Proof.
  intros pre xs post HPx. apply wp_run_sorts. unfold inplace_radix_sort. replace (length pre + length xs - length pre) with (length xs) by lia. apply wp_bind.
  assert (HK' : forall x y, P x -> P y -> less (proj x) (proj y) = true -> (key x <= key y)%N) by (intros x y Hx Hy H; apply HK in H; auto; lia).
  assert (HE : @None (nat -> nat -> nat -> M A unit) = None -> forall x y, P x -> P y -> less (proj x) (proj y) = true -> key x <> key y) by (intros _ x y Hx Hy H; apply HK in H; auto; lia).
  eapply wp_mono; [eapply std_sort_wp; eauto; now apply seg_intro|]. intros [|] m H; [now apply wp_ret|]. destruct H as [-> H1]. destruct (Nat.eqb bytes 0) eqn:E in |- *; [apply Nat.eqb_eq in E|apply Nat.eqb_neq in E].
  - apply bool_sort_wp; auto; [|discriminate|now apply seg_intro]. intros x Hx. apply HR in Hx. now rewrite E in Hx.
  - apply (unsigned_sorts less proj sub_key branchless std_thr am_thr HC P HK' None HE); auto; [discriminate|lia| |now apply seg_intro].
    rewrite Forall_forall in HPx. intros x y Hx Hy. unfold prefix. pose proof (HR x (HPx x Hx)). pose proof (HR y (HPx y Hy)). destruct (Nat.eqb_spec bytes 0); [lia|]. now rewrite !N.div_small.
Qed.
End Sorter.

(** * Integral keys *)
Local Open Scope Z_scope.
Definition key_in_range {A} (t : key_type) (proj : A -> Z) (x : A) : Prop := key_min t <= proj x <= key_max t.
Definition unsigned_character (t : key_type) : Prop := match t with Character t => signed t = false | _ => True end.
Definition whole_bytes (t : key_type) : Prop := match t with Bool => True | Integer t | Character t => exists k, 0 < k /\ bits t = 8 * k end.

Lemma key_bytes_pow : forall t, (exists k, 0 < k /\ bits t = 8 * k) -> (Z.to_nat (bits t / 8) =? 0)%nat = false /\ Z.of_N (256 ^ N.of_nat (Z.to_nat (bits t / 8))) = 2 ^ bits t.
Proof.
  intros t (k & Hk & E). rewrite E. replace (8 * k / 8) with k by (rewrite Z.mul_comm, Z.div_mul; lia). split.
  - apply Nat.eqb_neq. lia.
  - rewrite N2Z.inj_pow, nat_N_Z, Z2Nat.id by lia. change (Z.of_N 256) with (2 ^ 8). now rewrite <- Z.pow_mul_r by lia.
Qed.

Lemma signed_key : forall b z, 0 < b -> - 2 ^ (b - 1) <= z <= 2 ^ (b - 1) - 1 -> (z mod 2 ^ b + 2 ^ (b - 1)) mod 2 ^ b = z + 2 ^ (b - 1).
Proof.
  intros b z Hb Hz. rewrite Z.add_mod_idemp_l by (apply Z.pow_nonzero; lia). apply Z.mod_small. assert (2 ^ b = 2 * 2 ^ (b - 1)); [|lia]. rewrite <- Z.pow_succ_r by lia. f_equal. lia.
Qed.

Lemma ska_sorter_sorts : forall (A : Type) (t : key_type) (proj : A -> Z) (branchless : bool), whole_bytes t -> unsigned_character t ->
  sorts_when (Forall (key_in_range t proj)) (by_proj Z.ltb proj) (ska_sorter t proj branchless).
Proof.
  intros A t proj branchless HWB HU.
  assert (HC : strict_weak_order Z.ltb).
  { constructor.
    - apply Z.ltb_irrefl.
    - intros x y z. rewrite !Z.ltb_lt. lia.
    - intros x y z. rewrite !Z.ltb_ge. lia. }
  assert (HT : forall z, key_min t <= z <= key_max t -> Z.of_N (to_unsigned_or_bool t z) = z - key_min t).
  { intros z Hz. destruct t as [|t|t]; cbn [key_min key_max to_unsigned_or_bool] in *.
    - rewrite Z2N.id; lia.
    - destruct HWB as (k & Hk & E). unfold type_min, type_max in *. destruct (signed t).
      + rewrite signed_key by lia. rewrite Z2N.id; lia.
      + rewrite Z2N.id; lia.
    - unfold unsigned_character in HU. unfold type_min, type_max in *. rewrite HU in *. rewrite Z.mod_small by lia. rewrite Z2N.id; lia. }
  apply radix_sorts; auto.
  - intros x y Hx Hy H. apply Z.ltb_lt in H. apply HT in Hx, Hy. lia.
  - intros x Hx. pose proof (HT _ Hx) as E. unfold key_in_range in Hx. destruct t as [|t|t]; cbn [key_bytes key_min key_max] in *.
    + cbn [Nat.eqb]. lia.
    + destruct (key_bytes_pow t HWB) as [E1 E2]. rewrite E1. apply N2Z.inj_lt. rewrite E2, E. destruct HWB as (k & Hk & Eb). unfold type_min, type_max in *. destruct (signed t); [|lia].
      assert (2 ^ bits t = 2 * 2 ^ (bits t - 1)); [|lia]. rewrite <- Z.pow_succ_r by lia. f_equal. lia.
    + destruct (key_bytes_pow t HWB) as [E1 E2]. rewrite E1. apply N2Z.inj_lt. rewrite E2, E. unfold unsigned_character in HU. unfold type_min, type_max in *. rewrite HU in *. lia.
Qed.
