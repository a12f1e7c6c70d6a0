(** The overloads of swap_if against the generic one. *)
From Coq Require Import List Arith ZArith Lia Bool Permutation.
From Verif Require Import Spec.Order Spec.Sorts Spec.Approx Lang.Mem Model.Comparators Model.Ieee Proofs.Ieee Model.Basic Model.Counting Model.NetworkTables Model.Networks Model.SwapIf
  Proofs.Wp Proofs.NetLib Proofs.NetGen Proofs.NetOddEven Proofs.Networks.
Import ListNotations.

(** * Integers *)
Section Integers.
Local Open Scope Z_scope.

Lemma shiftr_small : forall x k, 0 <= k -> 0 <= x < 2 ^ k <-> Z.shiftr x k = 0.
Proof.
  intros x k Hk. rewrite Z.shiftr_div_pow2 by lia. assert (0 < 2 ^ k) by (apply Z.pow_pos_nonneg; lia). split; intros H0.
  - now apply Z.div_small.
  - pose proof (Z.div_mod x (2 ^ k)). pose proof (Z.mod_pos_bound x (2 ^ k)). nia.
Qed.
Lemma shiftr_small_neg : forall x k, 0 <= k -> - 2 ^ k <= x < 0 <-> Z.shiftr x k = -1.
Proof.
  intros x k Hk. rewrite Z.shiftr_div_pow2 by lia. assert (0 < 2 ^ k) by (apply Z.pow_pos_nonneg; lia).
  pose proof (Z.div_mod x (2 ^ k)). pose proof (Z.mod_pos_bound x (2 ^ k)). split; intros H2; nia.
Qed.

Lemma lxor_fits : forall t x y, 1 <= bits t -> fits t x = true -> fits t y = true -> fits t (Z.lxor x y) = true.
Proof.
  intros t x y HB. unfold fits, type_min, type_max. destruct (signed t); rewrite !andb_true_iff, !Z.leb_le; intros HX HY.
  - set (k := bits t - 1) in *. assert (Hk : 0 <= k) by (unfold k; lia).
    assert (forall z, - 2 ^ k <= z <= 2 ^ k - 1 <-> Z.shiftr z k = 0 \/ Z.shiftr z k = -1) as Hz.
    { intros z. rewrite <- shiftr_small, <- shiftr_small_neg by lia. assert (0 < 2 ^ k) by (apply Z.pow_pos_nonneg; lia). lia. }
    apply Hz. apply Hz in HX, HY. rewrite Z.shiftr_lxor. destruct HX as [-> | ->], HY as [-> | ->]; cbn; auto.
  - assert (forall z, 0 <= z <= 2 ^ bits t - 1 <-> Z.shiftr z (bits t) = 0) as Hz by (intros z; rewrite <- shiftr_small by lia; lia).
    apply Hz. apply Hz in HX, HY. now rewrite Z.shiftr_lxor, HX, HY.
Qed.

Lemma convert_id : forall t z, 1 <= bits t -> fits t z = true -> convert t z = z.
Proof.
  intros t z HB. unfold fits, convert, type_min, type_max. rewrite andb_true_iff, !Z.leb_le.
  assert (2 ^ bits t = 2 * 2 ^ (bits t - 1)) as E by (rewrite <- Z.pow_succ_r by lia; f_equal; lia).
  assert (0 < 2 ^ (bits t - 1)) by (apply Z.pow_pos_nonneg; lia).
  destruct (signed t); intros H0; rewrite Z.mod_small; lia.
Qed.

Lemma fits_promotion : forall t z, 1 <= bits t -> fits t z = true -> fits (promoted t) z = true.
Proof.
  intros t z HB. unfold promoted. destruct (Z.ltb_spec (bits t) 32); auto. unfold fits, type_min, type_max, int32. cbn [bits signed].
  rewrite !andb_true_iff, !Z.leb_le. assert (2 ^ bits t <= 2 ^ 31) by (apply Z.pow_le_mono_r; lia). assert (2 ^ (bits t - 1) <= 2 ^ 31) by (apply Z.pow_le_mono_r; lia).
  change (32 - 1) with 31. destruct (signed t); lia.
Qed.

Lemma int_swap_if_ok : forall t x y greater, 1 <= bits t -> fits t x = true -> fits t y = true ->
  int_swap_if t greater x y = swap_if (if greater then fun x y => Z.ltb y x else Z.ltb) (fun x => x) x y.
Proof.
  intros t x y greater HB HX HY.
  assert (1 <= bits (promoted t)) as HP by (unfold promoted, int32; destruct (_ <? _); cbn [bits]; lia).
  assert (convert t (Z.lxor y (convert (promoted t) (Z.lxor x x))) = y) as E1.
  { rewrite Z.lxor_nilpotent. rewrite (convert_id (promoted t) 0); auto.
    - rewrite Z.lxor_0_r. now apply convert_id.
    - apply fits_promotion; auto. unfold fits, type_min, type_max. assert (0 < 2 ^ (bits t - 1)) by (apply Z.pow_pos_nonneg; lia). assert (0 < 2 ^ bits t) by (apply Z.pow_pos_nonneg; lia).
      destruct (signed t); apply andb_true_iff; rewrite !Z.leb_le; lia. }
  assert (convert t (Z.lxor y (convert (promoted t) (Z.lxor x y))) = x) as E2.
  { rewrite (convert_id (promoted t)); auto; [|apply fits_promotion; auto; now apply lxor_fits].
    replace (Z.lxor y (Z.lxor x y)) with x; [now apply convert_id|].
    rewrite (Z.lxor_comm x y), <- Z.lxor_assoc, Z.lxor_nilpotent. now rewrite Z.lxor_0_l. }
  unfold int_swap_if, swap_if, std_min, std_max. destruct greater; [destruct (x <? y)|destruct (y <? x)]; now rewrite ?E1, ?E2.
Qed.
End Integers.

(** * Any type with an operator<. *)
Section Floats.
Context {F : Type} (less : F -> F -> bool).
Definition order (greater : bool) : F -> F -> bool := if greater then fun x y => less y x else less.

Lemma float_swap_if_order : forall greater x y,
  float_swap_if less greater x y = (if order greater y x then y else x, if order greater x y then y else x).
Proof. intros [|] x y; reflexivity. Qed.
End Floats.

(** * Networks *)
Section Simulation.
Context {A : Type} (lt : A -> A -> bool) (sw : A -> A -> A * A) (E : A -> A -> Prop).
(** Related inputs give related outputs. *)
Hypothesis HE : forall x x' y y', E x x' -> E y y' ->
  let (u, v) := sw x y in let (u', v') := swap_if lt (fun z => z) x' y' in E u u' /\ E v v'.
Variables (f n : nat).

(** The two memories hold related elements in the range and are the same outside. *)
Definition rel (m m' : mem A) : Prop :=
  (forall k, k < n -> exists x x', nth_error m (f + k) = Some (Val x) /\ nth_error m' (f + k) = Some (Val x') /\ E x x') /\
  (forall i, i < f \/ f + n <= i -> nth_error m i = nth_error m' i).

Lemma upd_rel : forall m m' k x x', rel m m' -> k < n -> E x x' -> rel (upd (f + k) (Val x) m) (upd (f + k) (Val x') m').
Proof.
  intros m m' k x x' [H1 H2] Hk HX. split.
  - intros j Hj. destruct (H1 k Hk) as (u & u' & G1 & G2 & _). destruct (Nat.eq_dec j k) as [->|N].
    + exists x, x'. rewrite !nth_upd_eq by (eapply nth_error_Some; rewrite ?G1, ?G2; discriminate). auto.
    + rewrite !nth_upd_ne by lia. auto.
  - intros i Hi. rewrite !nth_upd_ne by lia. auto.
Qed.

Lemma upd_self : forall i c (m : mem A), nth_error m i = Some c -> upd i c m = m.
Proof. induction i; intros c [|d m] H; try discriminate; cbn in *; [congruence|f_equal; auto]. Qed.

Lemma swap_rel : forall i j m1 m2 m2', i < n -> j < n -> i <> j -> rel m1 m2 -> iter_swap_if lt (fun z => z) (f + i) (f + j) m2 = Ok tt m2' ->
  exists m1', iter_swap_if_by sw (f + i) (f + j) m1 = Ok tt m1' /\ rel m1' m2'.
Proof.
  intros i j m1 m2 m2' Hi Hj Hij HR H. unfold iter_swap_if, less_at, iter_swap_if_by, bind, get, ret, swap, put in *.
  destruct (proj1 HR i Hi) as (x & x' & Xi & Xi' & HX). destruct (proj1 HR j Hj) as (y & y' & Yj & Yj' & HY). rewrite Yj', Xi' in H. rewrite Xi, Yj.
  pose proof (HE x x' y y' HX HY) as HE1. destruct (sw x y) as [u v]. unfold swap_if in HE1. rewrite Xi. rewrite nth_upd_ne by lia. rewrite Yj.
  eexists. split; [reflexivity|]. revert H HE1. destruct (lt y' x'); intros H HE1; cbv beta iota in H; rewrite ?Xi', ?Yj' in H.
  - injection H as <-. destruct HE1 as [H1 H2]. apply upd_rel; [apply upd_rel|..]; auto.
  - injection H as <-. destruct HE1 as [H1 H2]. rewrite <- (upd_self _ _ m2 Xi'). rewrite <- (upd_self (f + j) (Val y') (upd (f + i) (Val x') m2)) by (rewrite nth_upd_ne; auto; lia).
    apply upd_rel; [apply upd_rel|..]; auto.
Qed.

Lemma pairs_rel : forall ps m1 m2 m2', valid n ps -> rel m1 m2 -> swap_index_pairs lt (fun z => z) f ps m2 = Ok tt m2' ->
  exists m1', swap_index_pairs_by sw f ps m1 = Ok tt m1' /\ rel m1' m2'.
Proof.
  induction ps as [|[a b] ps IH]; intros m1 m2 m2' HV HR H; cbn [swap_index_pairs swap_index_pairs_by] in *.
  - injection H as <-. eexists. split; [reflexivity|auto].
  - inversion HV as [|? ? H1 HV']; subst. unfold valid_pair in H1. cbn in H1. unfold bind in *.
    destruct (iter_swap_if lt (fun z => z) (f + a) (f + b) m2) as [[] m'| |] eqn:E1; try discriminate.
    destruct (swap_rel a b m1 m2 m' ltac:(lia) ltac:(lia) ltac:(lia) HR E1) as (m1' & E2 & HR'). rewrite E2. eauto.
Qed.
End Simulation.

Lemma Forall2_length : forall X Y (R : X -> Y -> Prop) l l', Forall2 R l l' -> length l = length l'.
Proof. induction 1; cbn; auto. Qed.
Lemma nth_ext_some : forall X (l l' : list X), (forall i, nth_error l i = nth_error l' i) -> l = l'.
Proof. induction l as [|a l IH]; intros [|b l'] H; auto; [specialize (H 0)|specialize (H 0)|]; try discriminate. f_equal; [specialize (H 0); cbn in H; congruence|]. apply IH. intros i. exact (H (S i)). Qed.

Lemma rel_values : forall A (E : A -> A -> Prop) pre zs post m, rel E (length pre) (length zs) m (pre ++ map Val zs ++ post) ->
  exists ys, m = pre ++ map Val ys ++ post /\ Forall2 E ys zs.
Proof.
  intros A E pre zs post m [H1 H2].
  assert (exists ys, Forall2 E ys zs /\ forall k y, nth_error ys k = Some y -> nth_error m (length pre + k) = Some (Val y)) as (ys & HF & HN).
  { clear H2. assert (forall j, j <= length zs -> exists ys, Forall2 E ys (firstn j zs) /\ forall k y, nth_error ys k = Some y -> nth_error m (length pre + k) = Some (Val y)) as G.
    { induction j as [|j IH]; intros Hj.
      - exists []. split; [constructor|]. intros [|k] y G; discriminate.
      - destruct IH as (ys & F1 & F2); [lia|]. destruct (H1 j) as (x & x' & X1 & X2 & HX); [lia|].
        rewrite nth_error_app2 in X2 by lia. replace (length pre + j - length pre) with j in X2 by lia. rewrite nth_error_app1 in X2 by (rewrite map_length; lia).
        rewrite nth_error_map in X2. destruct (nth_error zs j) as [z|] eqn:Ez; [|discriminate]. injection X2 as ->.
        assert (firstn (S j) zs = firstn j zs ++ [x']) as ->.
        { clear -Ez. revert j Ez. induction zs as [|a zs IH]; intros [|j] G; try discriminate; cbn in *; [congruence|]. f_equal. auto. }
        exists (ys ++ [x]). split; [apply Forall2_app; auto|]. pose proof (Forall2_length _ _ _ _ _ F1) as L. rewrite firstn_length in L.
        intros k y Hy. destruct (Nat.lt_ge_cases k (length ys)) as [Hk|Hk]; [rewrite nth_error_app1 in Hy by lia; auto|].
        rewrite nth_error_app2 in Hy by lia. destruct (k - length ys) as [|[|]] eqn:Ek; try discriminate. injection Hy as <-. replace k with j by lia. auto. }
    destruct (G (length zs)) as (ys & F1 & F2); auto. rewrite firstn_all in F1. eauto. }
  pose proof (Forall2_length _ _ _ _ _ HF) as L. exists ys. split; auto. apply nth_ext_some. intros i.
  destruct (Nat.lt_ge_cases i (length pre)) as [Hi|Hi]; [rewrite H2 by lia; rewrite !nth_error_app1 by lia; reflexivity|].
  destruct (Nat.lt_ge_cases i (length pre + length zs)) as [Hj|Hj].
  - replace i with (length pre + (i - length pre)) by lia. destruct (nth_error ys (i - length pre)) as [y|] eqn:Ey.
    + rewrite (HN _ _ Ey). rewrite nth_error_app2 by lia. rewrite nth_error_app1 by (rewrite map_length; lia). replace (length pre + (i - length pre) - length pre) with (i - length pre) by lia. rewrite nth_error_map, Ey. reflexivity.
    + apply nth_error_None in Ey. lia.
  - rewrite H2 by lia. rewrite !nth_error_app2 by (rewrite ?map_length; lia). rewrite !map_length, L. reflexivity.
Qed.

Lemma rel_init : forall A (E : A -> A -> Prop) (pre : mem A) xs post, Forall (fun x => E x x) xs -> rel E (length pre) (length xs) (pre ++ map Val xs ++ post) (pre ++ map Val xs ++ post).
Proof.
  intros A E pre xs post H. split; auto. intros k Hk. rewrite nth_error_app2 by lia. rewrite nth_error_app1 by (rewrite map_length; lia).
  replace (length pre + k - length pre) with k by lia. rewrite nth_error_map. destruct (nth_error xs k) as [x|] eqn:Ex; [|apply nth_error_None in Ex; lia].
  exists x, x. cbn. repeat split. rewrite Forall_forall in H. apply H. eapply nth_error_In; eauto.
Qed.

(** A network run with another swap_if. *)
Theorem network_by : forall A (lt : A -> A -> bool) (sw : A -> A -> A * A) (E : A -> A -> Prop) n ps (pre : mem A) xs post,
  (forall x x' y y', E x x' -> E y y' -> let (u, v) := sw x y in let (u', v') := swap_if lt (fun z => z) x' y' in E u u' /\ E v v') ->
  strict_weak_order lt -> valid n ps -> sorts01 n ps -> length xs = n -> Forall (fun x => E x x) xs ->
  exists ys zs, swap_index_pairs_by sw (length pre) ps (pre ++ map Val xs ++ post) = Ok tt (pre ++ map Val ys ++ post) /\
    is_sorting_of lt xs zs /\ Forall2 E ys zs.
Proof.
  intros A lt sw E n ps pre xs post HE HS HV H01 HL HX.
  destruct (network_sorts_size A A lt (fun z => z) n ps HS HV H01 pre xs post HL) as (zs & G & Hz).
  assert (length zs = n) as Lz by (rewrite <- HL; symmetry; apply Permutation_length, Hz).
  destruct (pairs_rel lt sw E HE (length pre) n ps _ _ _ HV ltac:(rewrite <- HL; now apply rel_init) G) as (m1 & G1 & R).
  rewrite <- Lz in R. destruct (rel_values _ _ _ _ _ _ R) as (ys & -> & HF). exists ys, zs. auto.
Qed.

(** Up to equivalence, the overload for floating point types does what the generic one does. *)
Section FloatNetworks.
Context {F : Type} (less : F -> F -> bool) (HS : strict_weak_order less).

Lemma order_swo : forall greater, strict_weak_order (order less greater).
Proof.
  intros [|]; cbn; auto. destruct HS as [I T N]. split; auto.
  - intros x y z H1 H2. eauto.
  - intros x y z H1 H2 H3 H4. destruct (N x y z); auto.
Qed.

Lemma equivalent_iff : forall lt (x y : F), equivalent lt x y = true <-> lt x y = false /\ lt y x = false.
Proof. intros. unfold equivalent. rewrite andb_true_iff, !negb_true_iff. reflexivity. Qed.

Lemma equivalent_compat : forall lt, strict_weak_order lt -> forall x x' y y' : F, equivalent lt x x' = true -> equivalent lt y y' = true -> lt x y = lt x' y'.
Proof.
  intros lt HW x x' y y' HX HY. apply equivalent_iff in HX as [X1 X2]. apply equivalent_iff in HY as [Y1 Y2].
  assert (forall a a' b b', lt a a' = false -> lt a' a = false -> lt b b' = false -> lt b' b = false -> lt a b = true -> lt a' b' = true) as G.
  { intros a a' b b' A1 A2 B1 B2 H. destruct (lt a' b') eqn:E; auto. exfalso. destruct (lt b' a') eqn:E2.
    - assert (lt b a' = true). { destruct (lt b a') eqn:E3; auto. exfalso. destruct (lt a' b) eqn:E4.
        - assert (lt b' b = true) by (eapply swo_trans; eauto). congruence.
        - destruct (swo_incomp lt HW a' b b'); auto. congruence. }
      assert (lt a a' = true) by (eapply swo_trans; eauto). congruence.
    - destruct (swo_incomp lt HW a' b' b) as [E3 E4]; auto. destruct (swo_incomp lt HW a a' b); auto. congruence. }
  apply eq_true_iff_eq. split; apply G; auto.
Qed.

Lemma equivalent_trans : forall lt, strict_weak_order lt -> forall x y z : F, equivalent lt x y = true -> equivalent lt y z = true -> equivalent lt x z = true.
Proof. intros lt HW x y z HX HY. apply equivalent_iff in HX as [X1 X2]. apply equivalent_iff in HY as [Y1 Y2]. apply equivalent_iff. apply (swo_incomp lt HW x y z); auto. Qed.

(** Any relation finer than equivalence in which equivalent elements are interchangeable. *)
Lemma float_swap_rel : forall greater (E : F -> F -> Prop),
  (forall x x', E x x' -> equivalent (order less greater) x x' = true) ->
  (forall x x' y y', E x x' -> E y y' -> equivalent (order less greater) x y = true -> E x y') ->
  forall x x' y y', E x x' -> E y y' ->
  let (u, v) := float_swap_if less greater x y in let (u', v') := swap_if (order less greater) (fun z => z) x' y' in E u u' /\ E v v'.
Proof.
  intros greater E H1 H2 x x' y y' HX HY. rewrite float_swap_if_order. unfold swap_if. set (lt := order less greater) in *. pose proof (order_swo greater : strict_weak_order lt) as HW.
  rewrite <- (equivalent_compat lt HW y y' x x' (H1 _ _ HY) (H1 _ _ HX)).
  destruct (lt y x) eqn:E1, (lt x y) eqn:E2; split; auto.
  - assert (lt x x = true) by (eapply swo_trans; eauto). rewrite (swo_irrefl lt HW) in *. discriminate.
  - apply (H2 x x' y y'); auto. apply equivalent_iff. auto.
Qed.
End FloatNetworks.

(** * The network sorters *)
Definition no_distinct_equivalents {F} (lt : F -> F -> bool) (xs : list F) : Prop :=
  forall x y, In x xs -> In y xs -> equivalent lt x y = true -> x = y.

Lemma ltb_swo : strict_weak_order Z.ltb.
Proof. split; intros *; rewrite ?Z.ltb_lt, ?Z.ltb_ge; lia. Qed.

Section Results.
Variables (n : nat) (ps : list (nat * nat)).
Hypotheses (HV : valid n ps) (H01 : sorts01 n ps).

Lemma int_network : forall t greater, (1 <= bits t)%Z ->
  sorts_size_by n (Forall (fun x => fits t x = true)) (is_sorting_of (order Z.ltb greater)) (fun f _ => swap_index_pairs_by (int_swap_if t greater) f ps).
Proof.
  intros t greater HB pre xs post HL HX.
  destruct (network_by Z (order Z.ltb greater) (int_swap_if t greater) (fun x x' => x = x' /\ fits t x = true) n ps pre xs post) as (ys & zs & E & H1 & H2); auto.
  - intros x x' y y' [<- X] [<- Y]. rewrite (int_swap_if_ok t x y greater HB X Y). unfold order, swap_if. destruct greater; [destruct (Z.ltb x y)|destruct (Z.ltb y x)]; auto.
  - apply order_swo. exact ltb_swo.
  - eapply Forall_impl; [|exact HX]. cbn. auto.
  - exists ys. split; auto. assert (ys = zs) as ->; auto. clear -H2. induction H2 as [|? ? ? ? [-> _]]; congruence.
Qed.

Lemma float_network : forall F (less : F -> F -> bool) greater, strict_weak_order less ->
  sorts_size_by n (fun _ => True) (sorting_up_to_equivalence (order less greater)) (fun f _ => swap_index_pairs_by (float_swap_if less greater) f ps).
Proof.
  intros F less greater HS pre xs post HL _. pose proof (order_swo less HS greater) as HW. set (lt := order less greater) in *.
  destruct (network_by F lt (float_swap_if less greater) (fun x x' => equivalent lt x x' = true) n ps pre xs post) as (ys & zs & E & H1 & H2); auto.
  - apply (float_swap_rel less HS greater (fun x x' => equivalent lt x x' = true)); auto.
    intros x x' y y' X Y XY. apply (equivalent_trans lt HW x y y'); auto.
  - apply Forall_forall. intros x _. apply equivalent_iff. split; apply (swo_irrefl lt HW).
  - exists ys. split; auto. split; [|exists zs; split; [apply H1|auto]].
    intros i j x y Hij X Y. assert (forall k y, nth_error ys k = Some y -> exists z, nth_error zs k = Some z /\ equivalent lt y z = true) as G.
    { clear -H2. induction H2 as [|a b l l' H1 H2 IH]; intros [|k] y Hy; try discriminate; cbn in *; [injection Hy as <-; eauto|auto]. }
    destruct (G _ _ X) as (x' & X' & EX). destruct (G _ _ Y) as (y' & Y' & EY). rewrite (equivalent_compat lt HW y y' x x' EY EX). apply (proj2 H1 i j); auto.
Qed.

Lemma float_network_exact : forall F (less : F -> F -> bool) greater, strict_weak_order less ->
  sorts_size_by n (no_distinct_equivalents less) (is_sorting_of (order less greater)) (fun f _ => swap_index_pairs_by (float_swap_if less greater) f ps).
Proof.
  intros F less greater HS pre xs post HL HX. pose proof (order_swo less HS greater) as HW. set (lt := order less greater) in *.
  destruct (network_by F lt (float_swap_if less greater) (fun x x' => x = x' /\ In x xs) n ps pre xs post) as (ys & zs & E & H1 & H2); auto.
  - apply (float_swap_rel less HS greater (fun x x' => x = x' /\ In x xs)).
    + intros x x' [<- _]. apply equivalent_iff. split; apply (swo_irrefl lt HW).
    + intros x x' y y' [<- X] [<- Y] XY. split; auto. apply HX; auto. apply equivalent_iff in XY. apply equivalent_iff. subst lt. destruct greater; cbn in XY; tauto.
  - apply Forall_forall. auto.
  - exists ys. split; auto. assert (ys = zs) as ->; auto. clear -H2. induction H2 as [|? ? ? ? [-> _]]; congruence.
Qed.
End Results.

Lemma network_sorter_by_eq : forall A (sw : A -> A -> A * A) n f l, sorting_network_sorter_by sw n f l = swap_index_pairs_by sw f (of_table (network_swaps n)).
Proof. intros A sw n f l. unfold sorting_network_sorter_by. destruct n as [|[|n]]; reflexivity. Qed.

(** The three families of networks, from a fact about every network that sorts. *)
Lemma all_networks : forall A (sw : A -> A -> A * A) ok R,
  (forall n ps, valid n ps -> sorts01 n ps -> sorts_size_by n ok R (fun f _ => swap_index_pairs_by sw f ps)) ->
  (forall n, n <= 32 -> sorts_size_by n ok R (sorting_network_sorter_by sw n)) /\
  (forall n, sorts_size_by n ok R (merge_exchange_network_sorter_by sw n)) /\
  (forall n, n = 0 \/ (exists t, n = 2 ^ t) -> sorts_size_by n ok R (odd_even_merge_network_sorter_by sw n)).
Proof.
  intros A sw ok R H. split; [|split].
  - intros n Hn pre xs post HL HX. rewrite network_sorter_by_eq. apply (H n); auto; [apply table_valid; lia|now apply table_small].
  - intros n. unfold merge_exchange_network_sorter_by. destruct (merge_exchange_ok n) as (l & E & HV & HS). rewrite E. auto.
  - intros n [-> | [t ->]]; unfold odd_even_merge_network_sorter_by.
    + change (odd_even_merge_index_pairs 0) with (Some (@nil index_pair)). apply H; [constructor|]. intros v i j _ G. inversion G.
    + destruct (odd_even_merge_ok t) as (l & E & HV & HS). rewrite E. auto.
Qed.

Lemma float_swap_if_iff : forall F (less : F -> F -> bool), (forall x y, less x y = true -> less y x = false) ->
  forall greater x y, float_swap_if less greater x y = swap_if (order less greater) (fun z => z) x y <-> x = y \/ less x y = true \/ less y x = true.
Proof.
  intros F less HA greater x y. rewrite float_swap_if_order. unfold swap_if, order. destruct (less x y) eqn:E1, (less y x) eqn:E2; try (destruct greater; rewrite ?E1, ?E2).
  1,2: rewrite (HA _ _ E1) in E2; discriminate.
  1-4: split; intros _; [auto|reflexivity].
  all: split; [intros H; injection H; auto|intros [->|[H|H]]; [reflexivity|discriminate..]].
Qed.

Lemma fp_lt_asym : forall x y, fp_lt x y = true -> fp_lt y x = false.
Proof.
  assert (forall a b : QArith_base.Q, negb (QArith_base.Qle_bool b a) = true -> negb (QArith_base.Qle_bool a b) = false) as G.
  { intros a b H. apply negb_true_iff in H. apply negb_false_iff. apply QArith_base.Qle_bool_iff. apply QArith_base.Qlt_le_weak. apply QArith_base.Qnot_le_lt. intros N. apply QArith_base.Qle_bool_iff in N. congruence. }
  intros x y H. destruct x as [s p|s|s|s m e], y as [s' p'|s'|s'|s' m' e']; cbn [fp_lt] in *; try reflexivity; try discriminate; auto.
  - destruct s, s'; auto.
  - destruct s; auto.
  - destruct s; auto.
  - destruct s'; auto.
  - destruct s'; auto.
Qed.

Lemma number_eq : forall f (x y : number f), pattern x = pattern y -> x = y.
Proof. intros f [u hu] [v hv] H. cbn in H. subst v. f_equal. apply Eqdep_dec.UIP_dec. apply Bool.bool_dec. Qed.

Lemma distinct_equivalents : forall f (x y : number f), supported f -> equivalent Ieee.less x y = true -> x <> y ->
  (pattern x = 0 /\ pattern y = 2 ^ (width f - 1))%Z \/ (pattern y = 0 /\ pattern x = 2 ^ (width f - 1))%Z.
Proof.
  intros f x y HF HE HN. pose proof (supported_bits f HF) as HB. unfold equivalent in HE. apply andb_true_iff in HE as [H1 H2]. apply negb_true_iff in H1, H2.
  rewrite less_signed_magnitude in H1, H2 by auto. apply Z.ltb_ge in H1, H2.
  assert (pattern x <> pattern y) as NE by (intros G; apply HN; now apply number_eq).
  destruct (number_spec f x) as [X1 _]. destruct (number_spec f y) as [Y1 _].
  replace (width f - 1)%Z with (magnitude_bits f) by (unfold width; lia).
  unfold signed_magnitude, magnitude, negative in *. destruct (Z.leb_spec (2 ^ magnitude_bits f) (pattern x)); destruct (Z.leb_spec (2 ^ magnitude_bits f) (pattern y)); lia.
Qed.
