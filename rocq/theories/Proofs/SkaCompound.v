(** ska_sorter on pairs, tuples and sequences. *)
From Coq Require Import List Arith NArith ZArith Lia Permutation Bool Eqdep_dec.
From Verif Require Import Spec.Order Lang.Mem Spec.Sorts Spec.Verge Proofs.Wp Proofs.OrderLib Model.Basic Model.Indirect Proofs.Indirect Proofs.Search Proofs.Regions Model.Comparators Proofs.Comparators Model.Quick Model.Pdq Proofs.Pdq
  Model.Counting Model.Ska Proofs.Ska Proofs.SkaKeys Model.Ieee Proofs.Ieee Model.SkaCompound.
Import ListNotations.
Local Open Scope nat_scope.
Local Arguments nth_error : simpl never.
Local Arguments Nat.leb : simpl never.
Local Arguments Nat.ltb : simpl never.
Local Arguments Nat.eqb : simpl never.
Local Arguments Nat.sub : simpl never.
Local Arguments loop : simpl never.

(** * Scalars *)
Definition scalar_ok (s : scalar) : Prop := match s with Integral t => whole_bytes t /\ unsigned_character t | Floating f => supported f end.
(** An integer is in the range of its type, a floating point number is not -0.0. *)
Definition scalar_good (s : scalar) : scalar_value s -> Prop :=
  match s with Integral t => fun z => (key_min t <= z <= key_max t)%Z | Floating f => fun x => pattern x <> (2 ^ magnitude_bits f)%Z end.

Lemma z_swo : strict_weak_order Z.ltb.
Proof. constructor; [apply Z.ltb_irrefl|intros x y z; rewrite !Z.ltb_lt; lia|intros x y z; rewrite !Z.ltb_ge; lia]. Qed.
Lemma scalar_swo : forall s, scalar_ok s -> strict_weak_order (scalar_less s).
Proof. intros [t|f] H; [exact z_swo|]. apply less_swo. now apply supported_bits. Qed.

Lemma integral_key : forall t z, whole_bytes t -> unsigned_character t -> (key_min t <= z <= key_max t)%Z -> Z.of_N (to_unsigned_or_bool t z) = (z - key_min t)%Z.
Proof.
  intros t z HWB HU Hz. destruct t as [|t|t]; cbn [key_min key_max to_unsigned_or_bool] in *.
  - rewrite Z2N.id; lia.
  - destruct HWB as (k & Hk & E). unfold type_min, type_max in *. destruct (signed t).
    + rewrite signed_key by lia. rewrite Z2N.id; lia.
    + rewrite Z2N.id; lia.
  - unfold unsigned_character in HU. unfold type_min, type_max in *. rewrite HU in *. rewrite Z.mod_small by lia. rewrite Z2N.id; lia.
Qed.
Lemma number_eq : forall f (x y : number f), pattern x = pattern y -> x = y.
Proof. intros f [u Hu] [v Hv] E. cbn [pattern proj1_sig] in E. subst v. f_equal. apply UIP_dec. apply bool_dec. Qed.

Lemma scalar_key_less : forall s x y, scalar_ok s -> scalar_good s x -> scalar_good s y -> (scalar_key s x < scalar_key s y)%N -> scalar_less s x y = true.
Proof.
  intros [t|f] x y HO Hx Hy H.
  - destruct HO as [H1 H2]. cbn [scalar_less scalar_key scalar_good] in *. apply Z.ltb_lt. apply N2Z.inj_lt in H. rewrite !integral_key in H by auto. lia.
  - cbn [scalar_less scalar_key scalar_good] in *. pose proof (supported_bits f HO) as HB. rewrite (less_signed_magnitude f HB). apply Z.ltb_lt. apply N2Z.inj_lt in H. rewrite !(float_to_unsigned_spec f HB) in H.
    destruct (number_spec f x) as [X1 _]. destruct (number_spec f y) as [Y1 _]. pose proof (pow_W f HB). unfold signed_magnitude, magnitude, negative in *.
    destruct (Z.leb_spec (2 ^ magnitude_bits f) (pattern x)); destruct (Z.leb_spec (2 ^ magnitude_bits f) (pattern y)); lia.
Qed.
Lemma scalar_key_eq : forall s x y, scalar_ok s -> scalar_good s x -> scalar_good s y -> scalar_key s x = scalar_key s y -> x = y.
Proof.
  intros [t|f] x y HO Hx Hy H.
  - destruct HO as [H1 H2]. cbn [scalar_key scalar_good] in *. apply (f_equal Z.of_N) in H. rewrite !integral_key in H by auto. lia.
  - cbn [scalar_key scalar_good] in *. pose proof (supported_bits f HO) as HB. apply number_eq. apply (f_equal Z.of_N) in H. rewrite !(float_to_unsigned_spec f HB) in H.
    destruct (number_spec f x) as [X1 _]. destruct (number_spec f y) as [Y1 _]. pose proof (pow_W f HB). unfold negative in *.
    destruct (Z.leb_spec (2 ^ magnitude_bits f) (pattern x)); destruct (Z.leb_spec (2 ^ magnitude_bits f) (pattern y)); lia.
Qed.
Lemma scalar_total : forall s x y, scalar_ok s -> scalar_good s x -> scalar_good s y -> scalar_less s x y = false -> scalar_less s y x = false -> x = y.
Proof.
  intros s x y HO Hx Hy H1 H2. apply (scalar_key_eq s); auto. destruct (N.lt_trichotomy (scalar_key s x) (scalar_key s y)) as [H|[H|H]]; auto; apply scalar_key_less in H; auto; congruence.
Qed.
Lemma scalar_range : forall s x, scalar_ok s -> scalar_good s x -> (scalar_key s x < if (scalar_bytes s =? 0)%nat then 2 else 256 ^ N.of_nat (scalar_bytes s))%N.
Proof.
  intros [t|f] x HO Hx; cbn [scalar_key scalar_bytes scalar_good] in *.
  - destruct HO as [H1 H2]. apply N2Z.inj_lt. rewrite integral_key by auto. destruct t as [|t|t]; cbn [key_bytes key_min key_max whole_bytes unsigned_character] in *.
    + change (0 =? 0) with true. cbv iota. lia.
    + destruct (key_bytes_pow t H1) as [-> ->]. destruct H1 as (k & Hk & E). unfold type_min, type_max in *. destruct (signed t); [|lia]. assert (2 ^ bits t = 2 * 2 ^ (bits t - 1))%Z; [|lia]. rewrite <- Z.pow_succ_r by lia. f_equal. lia.
    + destruct (key_bytes_pow t H1) as [-> ->]. unfold type_min, type_max in *. rewrite H2 in *. lia.
  - apply N2Z.inj_lt. pose proof (float_key_range f (supported_bits f HO) x). destruct HO as [-> | ->]; exact H.
Qed.

(** * Types *)
Fixpoint type_ok (t : compound) : Prop := match t with Scalar s => scalar_ok s | Pair a b => type_ok a /\ type_ok b | Nil => True | Sequence a => type_ok a end.
Fixpoint good (t : compound) : value t -> Prop :=
  match t with Scalar s => scalar_good s | Pair a b => fun x => good a (fst x) /\ good b (snd x) | Nil => fun _ => True | Sequence a => Forall (good a) end.

Lemma pair_swo : forall X Y (l1 : X -> X -> bool) (l2 : Y -> Y -> bool), strict_weak_order l1 -> strict_weak_order l2 ->
  strict_weak_order (fun x y => l1 (fst x) (fst y) || (negb (l1 (fst y) (fst x)) && l2 (snd x) (snd y))).
Proof.
  intros X Y l1 l2 H1 H2. constructor.
  - intros [a b]. cbn [fst snd]. now rewrite (lt_irrefl l1 H1), (lt_irrefl l2 H2).
  - intros [a b] [c d] [e f]; cbn [fst snd]. destruct (l1 a c) eqn:E1.
    + intros _. destruct (l1 c e) eqn:E2; [intros _; now rewrite (lt_trans l1 H1 a c e)|]. cbn [orb]. destruct (l1 e c) eqn:E3; [discriminate|]. intros _. now rewrite (lt_le_trans l1 H1 a c e).
    + cbn [orb]. destruct (l1 c a) eqn:E1'; [discriminate|]. cbn [negb andb]. intros L1. destruct (l1 c e) eqn:E2.
      * intros _. now rewrite (le_lt_trans l1 H1 a c e).
      * cbn [orb]. destruct (l1 e c) eqn:E3; [discriminate|]. cbn [negb andb]. intros L2. destruct (swo_incomp _ H1 a c e) as [-> ->]; auto. cbn [orb negb andb]. now apply (lt_trans l2 H2 b d f).
  - intros [a b] [c d] [e f]; cbn [fst snd]. destruct (l1 a c) eqn:E1, (l1 c a) eqn:E2, (l1 c e) eqn:E3, (l1 e c) eqn:E4; cbn [orb negb andb]; try discriminate.
    intros G1 G2 G3 G4. destruct (swo_incomp _ H1 a c e) as [-> ->]; auto. cbn [orb negb andb]. exact (swo_incomp _ H2 b d f G1 G2 G3 G4).
Qed.
Lemma value_swo : forall t, type_ok t -> strict_weak_order (value_less t).
Proof.
  induction t as [s|a IHa b IHb| |a IHa]; intros HO; cbn [value_less].
  - now apply scalar_swo.
  - destruct HO. apply pair_swo; auto.
  - constructor; auto; discriminate.
  - apply lexicographical_compare_swo. auto.
Qed.
Lemma value_total : forall t x y, type_ok t -> good t x -> good t y -> value_less t x y = false -> value_less t y x = false -> x = y.
Proof.
  induction t as [s|a IHa b IHb| |a IHa]; cbn [value value_less good type_ok]; intros x y HO Hx Hy H1 H2.
  - now apply (scalar_total s).
  - destruct HO, Hx, Hy, x as [x x'], y as [y y']. cbn [fst snd] in *. apply orb_false_iff in H1 as [H1 H1'], H2 as [H2 H2']. rewrite H2 in H1'. rewrite H1 in H2'. cbn [negb andb] in *. f_equal; auto.
  - now destruct x, y.
  - assert (HF : Forall2 (fun u v => value_less a u v = false /\ value_less a v u = false) x y) by now apply lexicographical_compare_equiv. clear H1 H2. induction HF as [|u v x y [E1 E2] HF IH]; auto.
    inversion Hx; subst. inversion Hy; subst. f_equal; auto.
Qed.
Lemma value_equal_eq : forall t x y, type_ok t -> good t x -> good t y -> value_equal t x y = true -> x = y.
Proof.
  induction t as [s|a IHa b IHb| |a IHa]; cbn [value value_equal good type_ok]; intros x y HO Hx Hy H.
  - unfold scalar_equal in H. apply andb_true_iff in H as [H1 H2]. apply negb_true_iff in H1, H2. now apply (scalar_total s).
  - destruct HO, Hx, Hy, x as [x x'], y as [y y']. cbn [fst snd] in *. apply andb_true_iff in H as [H1' H2']. f_equal; auto.
  - now destruct x, y.
  - revert y Hy H. induction Hx as [|u x Hu Hx IH]; intros y Hy H; destruct y as [|v y]; auto; try discriminate. cbn [sequence_equal] in H. apply andb_true_iff in H as [H1 H2]. inversion Hy; subst. f_equal; auto.
Qed.

(** The types that have one sub-key, and those that the elements of a sequence may have. *)
Fixpoint indexable (t : compound) : Prop :=
  match t with Scalar (Integral Bool) => False | Scalar _ => True | Pair a b => indexable a /\ b = Nil | Nil => False | Sequence a => indexable a end.
Fixpoint single (t : compound) : Prop := match t with Scalar _ => True | Pair a b => single a /\ b = Nil | Nil => False | Sequence a => indexable a end.
Fixpoint sortable (t : compound) : Prop := match t with Scalar _ => True | Pair a b => sortable a /\ sortable b | Nil => True | Sequence a => indexable a end.
Lemma indexable_single : forall t, indexable t -> single t.
Proof. induction t as [s|a IHa b IHb| |a IHa]; cbn [indexable single]; auto. intros [H ->]. auto. Qed.

Lemma element_key_eq : forall t x y, indexable t -> type_ok t -> good t x -> good t y -> element_key_equal t x y = true -> x = y.
Proof.
  induction t as [s|a IHa b IHb| |a IHa]; cbn [value element_key_equal good type_ok indexable]; intros x y HI HO Hx Hy H.
  - apply N.eqb_eq in H. now apply (scalar_key_eq s).
  - destruct HO, Hx, Hy, HI as [HI ->], x as [x []], y as [y []]. cbn [fst snd] in *. f_equal; auto.
  - contradiction.
  - now apply (value_equal_eq (Sequence a)).
Qed.

Section Sorter.
Context {A T : Type} (less : T -> T -> bool) (proj : A -> T) (branchless : bool) (std_thr am_thr : nat).
Local Notation lt := (by_proj less proj).
Hypothesis HC : strict_weak_order less.
Implicit Types (m : mem A).
Local Notation std_sort := (std_sort_if_less_than_threshold less proj branchless std_thr).

Lemma wp_get_seg : forall m f (xs : list A) k i x (Q : A -> mem A -> Prop), seg m f xs -> nth_error xs i = Some x -> k = f + i -> Q x m -> wp (get k) Q m.
Proof. intros m f xs k i x Q HS Hi -> HQ. eapply wp_get; [|exact HQ]. eapply seg_get; eauto. Qed.

Lemma check_wp : forall t (g : getter T t) xs m f (Q : unit -> mem A -> Prop), (forall x, In x xs -> exists v, g (proj x) = Some v) -> seg m f xs -> Q tt m -> wp (check proj g f (length xs)) Q m.
Proof.
  intros t g xs. induction xs as [|x xs IH]; intros m f Q HX HS HQ; [now apply wp_ret|]. cbn [length check]. wstep. eapply (wp_get_seg m f (x :: xs) _ 0); [exact HS|reflexivity|lia|].
  destruct (HX x (or_introl eq_refl)) as (v & ->). apply IH; auto. { intros y Hy. apply HX. now right. } change (x :: xs) with ([x] ++ xs) in HS. apply seg_app in HS as [_ HS]. cbn [length] in HS. now rewrite Nat.add_1_r in HS.
Qed.

Lemma pdq_range : forall xs m f, seg m f xs -> sorts_range less proj (pdqsort less proj true branchless f (f + length xs)) f xs m.
Proof.
  intros xs m f HS. unfold sorts_range. eapply (runs_seg (is_sorting_of lt) (pdq_sorter less proj true branchless)); [exact (pdq_sorts less proj HC branchless)| |exact HS|reflexivity|].
  - intros u v [H2 _]. now rewrite (Permutation_length H2).
  - intros ys m' HR HS' HOn. exists ys. auto.
Qed.

(** A range is given to another sort if it is large. *)
Lemma std_sort_or : forall xs m f prog, seg m f xs -> (1 < length xs -> sorts_range less proj prog f xs m) ->
  sorts_range less proj (let* done := std_sort f (f + length xs) (length xs) in if (done : bool) then ret tt else prog) f xs m.
Proof.
  intros xs m f prog HS H. unfold sorts_range. apply wp_bind. eapply wp_mono; [eapply std_sort_wp; [exact HC|exact HS]|]. intros [|] m' Hm; [now apply wp_ret|]. cbv beta iota in Hm. destruct Hm as [-> HL]. now apply H.
Qed.

Section Sequences.
Context (a : compound) (g : getter T (Sequence a)).
Hypothesis HI : indexable a.
Hypothesis HO : type_ok a.
Variable Q : A -> Prop.
Hypothesis HQ : forall x, Q x -> exists l, g (proj x) = Some l /\ good (Sequence a) l.
Local Notation seq_of x := (sequence_of proj g x).
Lemma seq_good : forall x, Q x -> Forall (good a) (seq_of x).
Proof. intros x Hx. unfold sequence_of. destruct (HQ x Hx) as (l & -> & H). exact H. Qed.
Lemma seq_some : forall x, Q x -> g (proj x) = Some (seq_of x).
Proof. intros x Hx. unfold sequence_of. destruct (HQ x Hx) as (l & -> & H). reflexivity. Qed.

(** All the sequences of [xs] start with [p]. *)
Definition starts (p : list (value a)) (x : A) : Prop := exists r, seq_of x = p ++ r.

Lemma firstn_S : forall X (l l' : list X) i x, nth_error l i = Some x -> nth_error l' i = Some x -> firstn i l = firstn i l' -> firstn (S i) l = firstn (S i) l'.
Proof.
  intros X l. induction l as [|y l IH]; intros [|y' l'] [|i] x; cbn [nth_error firstn]; try discriminate.
  - intros E1 E2 _. now inversion E1; inversion E2; subst.
  - intros E1 E2 E. injection E as -> E. f_equal. eapply IH; eauto.
Qed.

Lemma match_from_wp : forall l0 l idx lm m, idx < lm -> lm <= length l0 -> lm <= length l -> Forall (good a) l0 -> Forall (good a) l -> firstn (S idx) l = firstn (S idx) l0 ->
  wp (match_from a l0 l idx lm) (fun r m' => m' = m /\ idx < r <= lm /\ firstn r l = firstn r l0) m.
Proof.
  intros l0 l idx lm m H1 H2 H3 G0 G HE. unfold match_from. apply wp_loop' with (I := fun i m' => m' = m /\ idx < i <= lm /\ firstn i l = firstn i l0) (mu := fun i => lm - i).
  - split; [auto|split; [lia|auto]].
  - lia.
  - intros i m' (-> & Hi & E). destruct (Nat.ltb_spec i lm) as [HL|HL].
    + destruct (nth_error l0 i) as [u|] eqn:Eu; [|apply nth_error_None in Eu; lia]. destruct (nth_error l i) as [v|] eqn:Ev; [|apply nth_error_None in Ev; lia].
      wstep. eapply wp_rd; [exact Eu|]. wstep. eapply wp_rd; [exact Ev|]. destruct (element_key_equal a u v) eqn:EK; cbn [negb]; apply wp_ret.
      * split; [|lia]. split; auto. split; [lia|]. assert (u = v) by (rewrite Forall_forall in G0, G; apply element_key_eq in EK; auto; [apply G0; eapply nth_error_In; eauto|apply G; eapply nth_error_In; eauto]). subst v. eapply firstn_S; eauto.
      * split; [auto|split; [lia|auto]].
    + apply wp_ret. split; auto. replace i with lm in E by lia. split; [lia|auto].
Qed.

Lemma common_prefix_wp : forall xs m f p, 0 < length xs -> Forall Q xs -> Forall (starts p) xs -> seg m f xs ->
  wp (common_prefix proj g f (f + length xs) (length p)) (fun r m' => m' = m /\ exists p', length p' = r /\ Forall (starts p') xs) m.
Proof.
  intros xs m f p HL HQx HP HS. rewrite Forall_forall in HQx, HP. destruct xs as [|x0 xs]; [cbn in HL; lia|]. set (ys := x0 :: xs) in *. unfold common_prefix. wstep.
  eapply (wp_get_seg m f ys _ 0); [exact HS|reflexivity|lia|]. set (l0 := seq_of x0). destruct (Nat.eqb_spec (length l0) (length p)) as [E|E].
  - apply wp_ret. split; auto. exists p. split; auto. now apply Forall_forall.
  - assert (Q0 : Q x0) by (apply HQx; now left). destruct (HP x0 (or_introl eq_refl)) as (r0 & Er0). fold l0 in Er0. assert (length p < length l0) by (rewrite Er0, app_length in *; lia). pose proof (seq_good x0 Q0) as G0. fold l0 in G0.
    apply wp_loop' with (I := fun '(it, lm) m' => m' = m /\ exists i, it = f + i /\ 1 <= i <= length ys /\ length p < lm <= length l0 /\
        forall j x, j < i -> nth_error ys j = Some x -> lm <= length (seq_of x) /\ firstn lm (seq_of x) = firstn lm l0) (mu := fun '(it, lm) => f + length ys - it).
    + split; auto. exists 1. split; [lia|]. split; [cbn; lia|]. split; [lia|]. intros j x Hj Hx. replace j with 0 in Hx by lia. cbn in Hx. injection Hx as <-. auto.
    + cbn [length ys]. lia.
    + intros [it lm] m' (-> & i & -> & Hi & Hlm & HX). destruct (Nat.eqb_spec (f + i) (f + length ys)) as [Ei|Ei].
      * apply wp_ret. split; auto. exists (firstn lm l0). split; [rewrite firstn_length; lia|]. apply Forall_forall. intros x Hx. apply In_nth_error in Hx as (j & Hj). destruct (HX j x) as [H1 H2]; auto. { apply nth_lt in Hj. lia. }
        exists (skipn lm (seq_of x)). rewrite <- H2. symmetry. apply firstn_skipn.
      * destruct (nth_error ys i) as [y|] eqn:Ey; [|apply nth_error_None in Ey; lia]. wstep. eapply wp_get_seg; [exact HS|exact Ey|lia|]. set (l := seq_of y).
        assert (Iy : In y ys) by (eapply nth_error_In; eauto). pose proof (seq_good y (HQx y Iy)) as Gy. fold l in Gy. destruct (HP y Iy) as (r & Er). fold l in Er. assert (Hp : length p <= length l) by (rewrite Er, app_length; lia).
        set (lm' := if length l <? lm then length l else lm). assert (HS0 : Forall (starts p) ys) by now apply Forall_forall.
        destruct ((length l <? lm) && (lm' =? length p)) eqn:EB; [apply wp_ret; split; auto; exists p; auto|].
        assert (Hlm' : length p < lm' /\ lm' <= lm /\ lm' <= length l).
        { unfold lm' in *. destruct (Nat.ltb_spec (length l) lm); [|lia]. cbn [andb] in EB. apply Nat.eqb_neq in EB. lia. }
        destruct (nth_error l0 (length p)) as [u|] eqn:Eu; [|apply nth_error_None in Eu; lia]. destruct (nth_error l (length p)) as [v|] eqn:Ev; [|apply nth_error_None in Ev; lia].
        wstep. eapply wp_rd; [exact Eu|]. wstep. eapply wp_rd; [exact Ev|]. destruct (element_key_equal a u v) eqn:EK; cbn [negb]; [|apply wp_ret; split; auto; exists p; auto].
        assert (v = u) as ->. { symmetry. rewrite Forall_forall in G0, Gy. apply element_key_eq in EK; auto; [apply G0; eapply nth_error_In; eauto|apply Gy; eapply nth_error_In; eauto]. }
        wstep. eapply wp_mono; [apply (match_from_wp l0 l (length p) lm'); auto; try lia|].
        { eapply firstn_S; eauto. rewrite Er, Er0. rewrite !firstn_app, Nat.sub_diag, !firstn_O. reflexivity. }
        intros r' m' (-> & Hr & Ef). apply wp_ret. split; [|lia]. split; auto. exists (S i). split; [lia|]. split; [lia|]. split; [lia|]. intros j x Hj Hx. destruct (Nat.eq_dec j i) as [->|].
        -- rewrite Ey in Hx. injection Hx as <-. split; [fold l; lia|exact Ef].
        -- destruct (HX j x) as [X1 X2]; auto; [lia|]. split; [lia|]. apply (f_equal (firstn r')) in X2. rewrite !firstn_firstn in X2. now rewrite !Nat.min_l in X2 by lia.
Qed.

Variable element_sort : getter T a -> option (nat -> nat -> nat -> M A unit) -> nat -> nat -> nat -> M A unit.
(** What the sort by the elements at some index is expected to do. *)
Hypothesis HES : forall (g' : getter T a) next (Q' : A -> Prop),
  (forall x, Q' x -> exists v, g' (proj x) = Some v /\ good a v) ->
  (forall x y v w, Q' x -> Q' y -> g' (proj x) = Some v -> g' (proj y) = Some w -> value_less a v w = true -> lt y x = false) ->
  (next = None -> forall x y, Q' x -> Q' y -> g' (proj x) = g' (proj y) -> lt x y = false) ->
  (forall sort, next = Some sort -> forall xs m f, (indexable a -> 1 < length xs) -> Forall Q' xs -> (forall x y, In x xs -> In y xs -> g' (proj x) = g' (proj y)) -> seg m f xs ->
     sorts_range less proj (sort f (f + length xs) (length xs)) f xs m) ->
  forall xs m f, 1 < length xs -> Forall Q' xs -> seg m f xs -> sorts_range less proj (element_sort g' next f (f + length xs) (length xs)) f xs m.
Variable next_sort : option (nat -> nat -> nat -> M A unit).
Hypothesis HM : forall x y v w, Q x -> Q y -> g (proj x) = Some v -> g (proj y) = Some w -> value_less (Sequence a) v w = true -> lt y x = false.
Hypothesis HN0 : next_sort = None -> forall x y, Q x -> Q y -> g (proj x) = g (proj y) -> lt x y = false.
Hypothesis HNS : forall sort, next_sort = Some sort -> forall xs m f, 1 < length xs -> Forall Q xs -> (forall x y, In x xs -> In y xs -> g (proj x) = g (proj y)) -> seg m f xs ->
  sorts_range less proj (sort f (f + length xs) (length xs)) f xs m.

Lemma lex_prefix : forall (p r s : list (value a)), lexicographical_compare (value_less a) (p ++ r) (p ++ s) = lexicographical_compare (value_less a) r s.
Proof.
  induction p as [|u p IH]; intros r s; auto. cbn [app lexicographical_compare]. now rewrite (lt_irrefl _ (value_swo a HO)).
Qed.

Lemma sequence_sort_wp : forall limit p xs m f, 0 < limit -> 1 < length xs -> Forall Q xs -> Forall (starts p) xs -> seg m f xs ->
  sorts_range less proj (sequence_sort less proj branchless std_thr element_sort g next_sort limit (length p) f (f + length xs)) f xs m.
Proof.
  induction limit as [|limit IH]; intros p xs m f HLm HL HQx HP HS; [lia|]. unfold sorts_range. cbn [sequence_sort]. wstep. eapply wp_mono; [apply common_prefix_wp; auto; lia|].
  clear HP. intros idx m' (-> & p' & <- & HP). wstep. eapply wp_mono; [now apply (partition_seg_wp A (fun x => length (seq_of x) <=? length p'))|].
  intros r m' (ys & zs & -> & S' & HPm & Hy & Hz & HOn). rewrite (Permutation_length HPm), app_length in *.
  assert (HX : forall x, In x (ys ++ zs) -> Q x /\ starts p' x). { intros x Hx. rewrite Forall_forall in HQx, HP. split; [apply HQx|apply HP]; (eapply Permutation_in; [symmetry; exact HPm|auto]). }
  assert (Ky : forall x, In x ys -> Q x /\ seq_of x = p').
  { intros x Hx. destruct (HX x) as [H1 (r & E)]. { apply in_or_app. auto. } split; auto. apply Hy in Hx. apply Nat.leb_le in Hx. rewrite E, app_length in Hx. destruct r; [|cbn in Hx; lia]. now rewrite app_nil_r in E. }
  assert (Kz : forall x, In x zs -> Q x /\ exists e r, seq_of x = p' ++ e :: r).
  { intros x Hx. destruct (HX x) as [H1 (r & E)]. { apply in_or_app. auto. } split; auto. apply Hz in Hx. apply Nat.leb_gt in Hx. rewrite E, app_length in Hx. destruct r as [|e r]; [cbn in Hx; lia|]. eauto. }
  eapply wp_mono with (Q := fun _ m2 => exists ws, seg m2 f ws /\ is_sorting_of lt (ys ++ zs) ws /\ only (within f (length (ys ++ zs))) m' m2).
  2:{ intros u m2 (ws & S2 & [P2 O2] & W2). exists ws. split; auto. split; [split; auto; now rewrite HPm|]. rewrite app_length in W2. now apply only_trans with m'. }
  apply sort_both; auto.
  - intros x y Hx Hy'. destruct (Ky x Hx) as [Qx Ex]. destruct (Kz y Hy') as (Qy & e & r & Ey). apply (HM x y (seq_of x) (seq_of y)); auto using seq_some. rewrite Ex, Ey. cbn [value_less].
    rewrite <- (app_nil_r p') at 1. now rewrite lex_prefix.
  - intros S1. destruct next_sort as [sort|].
    + replace (f + length ys - f) with (length ys) by lia. apply std_sort_or; auto. intros HL1. apply (HNS sort eq_refl); auto.
      * apply Forall_forall. intros x Hx. now apply Ky.
      * intros x y Hx Hy'. destruct (Ky x Hx) as [Qx Ex]. destruct (Ky y Hy') as [Qy Ey]. rewrite !seq_some by auto. congruence.
    + apply wp_ret. exists ys. split; auto. split; [|apply only_refl]. split; auto. intros i j x y Hij Hx Hy'. apply nth_error_In in Hx, Hy'. destruct (Ky x Hx) as [Qx Ex]. destruct (Ky y Hy') as [Qy Ey].
      apply (HN0 eq_refl); auto. rewrite !seq_some by auto. congruence.
  - intros m2 S2. replace (f + (length ys + length zs) - (f + length ys)) with (length zs) by lia. replace (f + (length ys + length zs)) with (f + length ys + length zs) by lia.
    apply std_sort_or; auto. intros HL2.
    assert (KG : forall x e r, Q x -> seq_of x = p' ++ e :: r -> get_element g (length p') (proj x) = Some e).
    { intros x e r Qx E. unfold get_element. rewrite seq_some by auto. rewrite E, nth_error_app2, Nat.sub_diag by lia. reflexivity. }
    apply (HES (get_element g (length p')) _ (fun x => Q x /\ exists e r, seq_of x = p' ++ e :: r)); auto.
    + intros x (Qx & e & r & E). exists e. split; [eapply KG; eauto|]. pose proof (seq_good x Qx) as G. rewrite E in G. apply Forall_app in G as [_ G]. now inversion G.
    + intros x y v w (Qx & e & r & E) (Qy & e' & r' & E') Ev Ew HVL. rewrite (KG x e r) in Ev by auto. rewrite (KG y e' r') in Ew by auto. injection Ev as <-. injection Ew as <-.
      apply (HM x y (seq_of x) (seq_of y)); auto using seq_some. rewrite E, E'. cbn [value_less]. rewrite lex_prefix. cbn [lexicographical_compare]. now rewrite HVL.
    + discriminate.
    + intros sort Es ws m3 f3 HL3 HF3 HE3 S3. injection Es as <-. specialize (HL3 HI). destruct (Nat.eqb_spec limit 0) as [El|El]; [now apply pdq_range|].
      rewrite Forall_forall in HF3. destruct ws as [|w ws]; [cbn in HL3; lia|]. destruct (HF3 w (or_introl eq_refl)) as (Qw & e & r & Ew).
      replace (S (length p')) with (length (p' ++ [e])) by (rewrite app_length; cbn; lia). apply IH; auto; [lia| |].
      * apply Forall_forall. intros x Hx. now apply HF3.
      * apply Forall_forall. intros x Hx. destruct (HF3 x Hx) as (Qx & e' & r' & Ex). exists r'. specialize (HE3 x w Hx (or_introl eq_refl)). rewrite (KG x e' r'), (KG w e r) in HE3 by auto. injection HE3 as ->. now rewrite <- app_assoc.
    + apply Forall_forall. intros x Hx. now apply Kz.
Qed.
End Sequences.

(** * The sort by a sub-key *)
Lemma inplace_sort_wp : forall t, single t -> type_ok t -> forall (g : getter T t) next (Q : A -> Prop),
  (forall x, Q x -> exists v, g (proj x) = Some v /\ good t v) ->
  (forall x y v w, Q x -> Q y -> g (proj x) = Some v -> g (proj y) = Some w -> value_less t v w = true -> lt y x = false) ->
  (next = None -> forall x y, Q x -> Q y -> g (proj x) = g (proj y) -> lt x y = false) ->
  (forall sort, next = Some sort -> forall xs m f, (indexable t -> 1 < length xs) -> Forall Q xs -> (forall x y, In x xs -> In y xs -> g (proj x) = g (proj y)) -> seg m f xs ->
     sorts_range less proj (sort f (f + length xs) (length xs)) f xs m) ->
  forall xs m f, 1 < length xs -> Forall Q xs -> seg m f xs -> sorts_range less proj (inplace_sort less proj branchless std_thr am_thr t g next f (f + length xs) (length xs)) f xs m.
Proof.
  induction t as [s|a IHa b IHb| |a IHa]; cbn [single]; intros HSi HO g next Q HQ HM HN0 HNS xs m f HL HQx HS.
  - cbn [inplace_sort type_ok] in *. unfold sorts_range. wstep. replace (f + length xs - f) with (length xs) by lia.
    assert (HX : forall x, In x xs -> exists v, g (proj x) = Some v). { intros x Hx. rewrite Forall_forall in HQx. destruct (HQ x (HQx x Hx)) as (v & E & _). eauto. }
    apply (check_wp (Scalar s) g xs); auto. set (sub_key := fun v => match g v with Some k => scalar_key s k | None => 0%N end).
    assert (KS : forall x v, g (proj x) = Some v -> sub_key (proj x) = scalar_key s v) by (intros x v E; unfold sub_key; now rewrite E).
    assert (KE : forall x y, Q x -> Q y -> sub_key (proj x) = sub_key (proj y) -> g (proj x) = g (proj y)).
    { intros x y Hx Hy E. destruct (HQ x Hx) as (v & Ev & Gv). destruct (HQ y Hy) as (w & Ew & Gw). rewrite (KS x v), (KS y w) in E by auto. rewrite Ev, Ew. f_equal. now apply (scalar_key_eq s). }
    assert (HK : forall x y, Q x -> Q y -> less (proj x) (proj y) = true -> (sub_key (proj x) <= sub_key (proj y))%N).
    { intros x y Hx Hy E. destruct (N.le_gt_cases (sub_key (proj x)) (sub_key (proj y))) as [|G]; auto. exfalso. destruct (HQ x Hx) as (v & Ev & Gv). destruct (HQ y Hy) as (w & Ew & Gw).
      rewrite (KS x v), (KS y w) in G by auto. apply scalar_key_less in G; auto. pose proof (HM y x w v Hy Hx Ew Ev G) as H. unfold by_proj in H. congruence. }
    assert (HE : next = None -> forall x y, Q x -> Q y -> less (proj x) (proj y) = true -> sub_key (proj x) <> sub_key (proj y)).
    { intros En x y Hx Hy E EK. apply KE in EK; auto. apply (HN0 En) in EK; auto. unfold by_proj in EK. congruence. }
    assert (HR : forall x, Q x -> (sub_key (proj x) < if (scalar_bytes s =? 0)%nat then 2 else 256 ^ N.of_nat (scalar_bytes s))%N).
    { intros x Hx. destruct (HQ x Hx) as (v & Ev & Gv). rewrite (KS x v) by auto. now apply scalar_range. }
    destruct (scalar_bytes s =? 0) eqn:EB.
    + apply bool_sort_wp with (P := Q); auto. intros sort Es ys m' f' HQy Hk HSy. apply (HNS sort Es); auto.
      * destruct s as [[|t|t]|fm]; cbn [scalar_bytes key_bytes scalar_ok indexable] in *; try contradiction; apply Nat.eqb_eq in EB.
        -- destruct HO as [HO _]. destruct (key_bytes_pow t HO) as [E _]. rewrite EB in E. discriminate.
        -- destruct HO as [HO _]. destruct (key_bytes_pow t HO) as [E _]. rewrite EB in E. discriminate.
        -- destruct HO as [-> | ->]; discriminate.
      * intros x y Hx Hy. rewrite Forall_forall in HQy. apply KE; auto.
    + apply Nat.eqb_neq in EB. apply (unsigned_sorts less proj sub_key branchless std_thr am_thr HC Q HK next HE); auto; [|lia|].
      * intros sort Es ys m' f' HL' HQy Hk HSy. apply (HNS sort Es); auto. intros x y Hx Hy. rewrite Forall_forall in HQy. apply KE; auto. specialize (Hk x y Hx Hy). now rewrite !prefix_0 in Hk.
      * rewrite Forall_forall in HQx. intros x y Hx Hy. unfold prefix. pose proof (HR x (HQx x Hx)). pose proof (HR y (HQx y Hy)). now rewrite !N.div_small.
  - destruct HSi as [HSi ->]. destruct HO as [HO _]. cbn [inplace_sort].
    assert (GE : forall x y, Q x -> Q y -> get_first g (proj x) = get_first g (proj y) -> g (proj x) = g (proj y)).
    { intros x y Hx Hy E. unfold get_first in E. destruct (HQ x Hx) as ([v []] & Ev & _). destruct (HQ y Hy) as ([w []] & Ew & _). rewrite Ev, Ew in *. cbn [option_map fst] in E. injection E as ->. reflexivity. }
    apply (IHa HSi HO (get_first g) next Q); auto.
    + intros x Hx. destruct (HQ x Hx) as ([v []] & Ev & [G _]). exists v. unfold get_first. now rewrite Ev.
    + intros x y v w Hx Hy Ev Ew HVL. destruct (HQ x Hx) as ([v' []] & Ev' & _). destruct (HQ y Hy) as ([w' []] & Ew' & _). unfold get_first in Ev, Ew. rewrite Ev' in Ev. rewrite Ew' in Ew. injection Ev as <-. injection Ew as <-.
      apply (HM x y _ _ Hx Hy Ev' Ew'). cbn [value_less fst snd] in *. now rewrite HVL.
    + intros sort Es ys m' f' HL' HQy Hk HSy. apply (HNS sort Es); auto; [|intros x y Hx Hy; rewrite Forall_forall in HQy; apply GE; auto]. intros [H _]. auto.
  - contradiction.
  - cbn [inplace_sort type_ok] in *. unfold sorts_range. wstep. replace (f + length xs - f) with (length xs) by lia. apply (check_wp (Sequence a) g xs); auto.
    + intros x Hx. rewrite Forall_forall in HQx. destruct (HQ x (HQx x Hx)) as (v & E & _). eauto.
    + apply (sequence_sort_wp a g HSi HO Q HQ (inplace_sort less proj branchless std_thr am_thr a)) with (p := []); auto; [|lia|].
      * apply IHa; auto. now apply indexable_single.
      * apply Forall_forall. intros x _. exists (sequence_of proj g x). reflexivity.
Qed.

(** * The chain of sub-keys *)
Fixpoint chain_less (ks : list (subkey T)) (v w : T) : bool :=
  match ks with
  | [] => false
  | k :: ks => match projT2 k v, projT2 k w with Some x, Some y => value_less _ x y || (negb (value_less _ y x) && chain_less ks v w) | _, _ => false end
  end.
Definition subkey_ok (k : subkey T) : Prop := single (projT1 k) /\ type_ok (projT1 k).

Lemma sort_starter_wp : forall ks (Q : A -> Prop), Forall subkey_ok ks -> (forall x k, Q x -> In k ks -> exists v, projT2 k (proj x) = Some v /\ good (projT1 k) v) ->
  (forall x y, Q x -> Q y -> lt x y = chain_less ks (proj x) (proj y)) ->
  forall xs m f, Forall Q xs -> seg m f xs -> sorts_range less proj (sort_starter less proj branchless std_thr am_thr ks f (f + length xs) (length xs)) f xs m.
Proof.
  induction ks as [|[t g] ks IH]; intros Q HKs HQ HLt xs m f HQx HS.
  - apply wp_ret. exists xs. split; auto. split; [|apply only_refl]. split; auto. rewrite Forall_forall in HQx. intros i j x y Hij Hx Hy. apply nth_error_In in Hx, Hy. rewrite HLt; auto.
  - cbn [sort_starter projT1 projT2]. inversion HKs as [|k' ks' [HSi HO] HKs']; subst. cbn [projT1 projT2] in *. apply std_sort_or; auto. intros HL.
    assert (HQg : forall x, Q x -> exists v, g (proj x) = Some v /\ good t v) by (intros x Hx; exact (HQ x (existT _ t g) Hx (or_introl eq_refl))).
    apply (inplace_sort_wp t HSi HO g _ Q); auto.
    + intros x y v w Hx Hy Ev Ew HVL. rewrite HLt by auto. cbn [chain_less projT1 projT2]. rewrite Ev, Ew. rewrite (lt_asym _ (value_swo t HO) v w HVL), HVL. reflexivity.
    + destruct ks; [|discriminate]. intros _ x y Hx Hy E. rewrite HLt by auto. cbn [chain_less projT1 projT2]. rewrite E. destruct (g (proj y)) as [v|]; auto. rewrite (lt_irrefl _ (value_swo t HO)). now rewrite andb_false_r.
    + intros sort Es ys m' f' _ HQy HEq HSy.
      assert (sort = sort_starter less proj branchless std_thr am_thr ks) as -> by (destruct ks; congruence).
      apply (IH (fun x => Q x /\ In x ys)); auto.
      * intros x k [Hx _] Hk. apply HQ; auto. now right.
      * intros x y [Hx Ix] [Hy Iy]. rewrite HLt by auto. cbn [chain_less projT1 projT2]. rewrite (HEq x y Ix Iy). destruct (HQg y Hy) as (v & -> & _). now rewrite (lt_irrefl _ (value_swo t HO)).
      * rewrite Forall_forall in *. auto.
Qed.
End Sorter.

Lemma chain_subkeys : forall T t (g : getter T t) ks v w x y, g v = Some x -> g w = Some y ->
  chain_less (subkeys t g ++ ks) v w = value_less t x y || (negb (value_less t y x) && chain_less ks v w).
Proof.
  intros T. induction t as [s|a IHa b IHb| |a IHa]; intros g ks v w x y Ex Ey; cbn [subkeys app chain_less projT1 projT2]; rewrite ?Ex, ?Ey; auto.
  rewrite <- app_assoc. rewrite (IHa _ _ v w (fst x) (fst y)), (IHb _ _ v w (snd x) (snd y)) by (unfold get_first, get_second; now rewrite ?Ex, ?Ey). cbn [value_less].
  destruct (value_less a (fst x) (fst y)), (value_less a (fst y) (fst x)), (value_less b (snd x) (snd y)), (value_less b (snd y) (snd x)), (chain_less ks v w); reflexivity.
Qed.
Lemma subkeys_ok : forall T t (g : getter T t), sortable t -> type_ok t -> Forall (subkey_ok) (subkeys t g).
Proof.
  intros T. induction t as [s|a IHa b IHb| |a IHa]; intros g HSo HO; cbn [subkeys sortable type_ok] in *.
  - constructor; auto. split; cbn; auto.
  - apply Forall_app. destruct HSo, HO. auto.
  - constructor.
  - constructor; auto. split; cbn; auto.
Qed.
Lemma subkeys_good : forall T t (g : getter T t) k v x, g v = Some x -> good t x -> In k (subkeys t g) -> exists y, projT2 k v = Some y /\ good (projT1 k) y.
Proof.
  intros T. induction t as [s|a IHa b IHb| |a IHa]; intros g k v x Ex Gx Hk; cbn [subkeys good] in *.
  - destruct Hk as [<-|[]]. exists x. auto.
  - destruct Gx. apply in_app_iff in Hk as [Hk|Hk]; [eapply (IHa _ k v (fst x)) in Hk|eapply (IHb _ k v (snd x)) in Hk]; eauto; unfold get_first, get_second; now rewrite Ex.
  - destruct Hk.
  - destruct Hk as [<-|[]]. exists x. auto.
Qed.

Theorem compound_ska_sorts : forall A t (proj : A -> value t) branchless, sortable t -> type_ok t ->
  sorts_when (Forall (fun x => good t (proj x))) (by_proj (value_less t) proj) (compound_ska_sorter t proj branchless).
Proof.
  intros A t proj branchless HSo HO pre xs post HG. apply wp_run_sorts. unfold compound_ska_sorter. replace (length pre + length xs - length pre) with (length xs) by lia.
  apply (sort_starter_wp (value_less t) proj branchless 128 1024 (value_swo t HO) (subkeys t Some) (fun x => good t (proj x))); auto.
  - now apply subkeys_ok.
  - intros x k Hx Hk. eapply subkeys_good; eauto.
  - intros x y Hx Hy. rewrite <- (app_nil_r (subkeys t Some)). erewrite chain_subkeys; [|reflexivity|reflexivity]. cbn [chain_less]. now rewrite andb_false_r, orb_false_r.
  - now apply seg_intro.
Qed.
