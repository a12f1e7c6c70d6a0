(** grail_sort: the merges. *)
From Coq Require Import List Arith Lia Permutation Bool ZArith.
From Verif Require Import Spec.Order Lang.Mem Proofs.Wp Proofs.OrderLib Model.Rotate Proofs.Rotate Proofs.RotateGcd Model.Search Proofs.Search Model.Grail.
Import ListNotations.
Local Arguments nth_error : simpl never.
Local Arguments upd : simpl never.
Local Arguments loop : simpl never.

Section Gap.
Context {A : Type}.
Implicit Types (g pre post : mem A) (buf : list A).

(** The cells of a gap: those of the buffer in some order, or cells that hold objects. *)
Definition gapok (ext : bool) buf g : Prop := if ext then Forall live g /\ length g = length buf else Permutation (map Val buf) g.

Lemma gapok_len : forall ext buf g, gapok ext buf g -> length g = length buf.
Proof. intros [] buf g H. { apply H. } apply Permutation_length in H. now rewrite map_length in H. Qed.
Lemma gapok_perm : forall ext buf g g', gapok ext buf g -> Permutation g g' -> gapok ext buf g'.
Proof.
  intros [] buf g g' H HP; simpl in *.
  - destruct H as [H1 H2]. split. { eapply Permutation_Forall; eauto. } now rewrite <- (Permutation_length HP).
  - now rewrite H.
Qed.

Lemma gapok_vals : forall buf g, gapok false buf g -> exists ys, g = map Val ys /\ Permutation buf ys.
Proof. intros buf g H. simpl in H. symmetry in H. apply Permutation_map_inv in H as (ys & -> & HP). eauto. Qed.
Lemma gapok_vals_in : forall buf g c, gapok false buf g -> In c g -> exists x, c = Val x.
Proof. intros buf g c H Hi. apply gapok_vals in H as (ys & -> & _). apply in_map_iff in Hi as (x & <- & _). eauto. Qed.

Lemma transfer_left_wp : forall ext buf c g l1 l2 l3 x dst src (Q : unit -> mem A -> Prop), gapok ext buf (c :: g) ->
  dst = length l1 -> src = length l1 + S (length l2) ->
  (forall c', gapok ext buf (c' :: g) -> Q tt (l1 ++ Val x :: l2 ++ c' :: l3)) ->
  wp (transfer ext dst src) Q (l1 ++ c :: l2 ++ Val x :: l3).
Proof.
  intros ext buf c g l1 l2 l3 x dst src Q HG -> -> HQ. unfold transfer. destruct ext.
  - destruct HG as [HG HL]. inversion HG; subst. apply wp_move_to_left; auto. apply HQ. split; auto. constructor; auto. discriminate.
  - destruct (gapok_vals_in _ _ c HG) as (y & ->); [now left|]. apply wp_swap_at; auto.
Qed.
Lemma wp_swap_at' : forall (l1 l2 l3 : mem A) a b i j (Q : unit -> mem A -> Prop), j = length l1 -> i = length l1 + S (length l2) ->
  Q tt (l1 ++ Val b :: l2 ++ Val a :: l3) -> wp (swap i j) Q (l1 ++ Val a :: l2 ++ Val b :: l3).
Proof.
  intros l1 l2 l3 a b i j Q Hi Hj HQ. assert (wp (swap j i) Q (l1 ++ Val a :: l2 ++ Val b :: l3)) as H by now apply wp_swap_at.
  unfold wp, swap in *. destruct (nth_error _ i) as [[| |]|] eqn:Ei; destruct (nth_error _ j) as [[| |]|] eqn:Ej; auto.
  rewrite upd_comm by lia. auto.
Qed.
Lemma transfer_right_wp : forall ext buf c g l1 l2 l3 x dst src (Q : unit -> mem A -> Prop), gapok ext buf (c :: g) ->
  src = length l1 -> dst = length l1 + S (length l2) ->
  (forall c', gapok ext buf (c' :: g) -> Q tt (l1 ++ c' :: l2 ++ Val x :: l3)) ->
  wp (transfer ext dst src) Q (l1 ++ Val x :: l2 ++ c :: l3).
Proof.
  intros ext buf c g l1 l2 l3 x dst src Q HG -> -> HQ. unfold transfer. destruct ext.
  - destruct HG as [HG HL]. inversion HG; subst. apply wp_move_to_right; auto. apply HQ. split; auto. constructor; auto. discriminate.
  - destruct (gapok_vals_in _ _ c HG) as (y & ->); [now left|]. apply wp_swap_at'; auto.
Qed.

(** Shift to the left over the gap, with swaps. *)
Lemma swap_ranges_shift_wp : forall xs ys pre post f1 l1 f2 (Q : nat -> mem A -> Prop),
  f1 = length pre -> l1 = f1 + length xs -> f2 = f1 + length ys -> ys <> [] ->
  (forall ys', Permutation ys ys' -> Q (f2 + length xs) (pre ++ map Val xs ++ map Val ys' ++ post)) ->
  wp (swap_ranges f1 l1 f2) Q (pre ++ map Val ys ++ map Val xs ++ post).
Proof.
  intros xs ys pre post f1 l1 f2 Q -> -> -> HN HQ. unfold swap_ranges.
  apply wp_loop' with
    (I := fun '(g1, g2) m => exists x1 x2 ys', xs = x1 ++ x2 /\ Permutation ys ys' /\
       m = pre ++ map Val x1 ++ map Val ys' ++ map Val x2 ++ post /\ g1 = length pre + length x1 /\ g2 = length pre + length x1 + length ys)
    (mu := fun '(g1, g2) => length pre + length xs - g1).
  - exists [], xs, ys. cj; auto; lens.
  - lia.
  - intros [g1 g2] m (x1 & x2 & ys' & -> & HP & -> & -> & ->). rewrite app_length in *. destruct x2 as [|x x2].
    + simpl. rewrite Nat.add_0_r, Nat.eqb_refl. apply wp_ret. rewrite app_nil_r in HQ.
      replace (length pre + length x1 + length ys) with (length pre + length ys + (length x1 + length (@nil A))) by (simpl; lia). now apply HQ.
    + simpl length in *. destruct (Nat.eqb_spec (length pre + length x1) (length pre + (length x1 + S (length x2)))); [lia|].
      pose proof (Permutation_length HP) as HL.
      destruct ys' as [|y ys']. { destruct ys; [congruence|discriminate HL]. }
      apply wp_bind. reshape ((pre ++ map Val x1) ++ Val y :: map Val ys' ++ Val x :: map Val x2 ++ post).
      simpl in HL. apply wp_swap_at; try (lens; fail). apply wp_ret. split; [|lia].
      exists (x1 ++ [x]), x2, (ys' ++ [y]). cj; try (lens; fail); try solve_app. rewrite HP. apply Permutation_cons_append.
Qed.

(** The gap passes over a range. *)
Lemma gap_shift_wp : forall ext buf G xs pre post f1 n f2 (Q : nat -> mem A -> Prop), gapok ext buf G -> G <> [] ->
  f1 = length pre -> n = length xs -> f2 = f1 + length G ->
  (forall r G', gapok ext buf G' -> Q r (pre ++ map Val xs ++ G' ++ post)) ->
  wp (if ext then move_range f2 (f2 + n) f1 else swap_ranges f1 (f1 + n) f2) Q (pre ++ G ++ map Val xs ++ post).
Proof.
  intros [] buf G xs pre post f1 n f2 Q HG HN -> -> -> HQ.
  - destruct HG as [HG HL]. apply move_range_left_wp; auto. intros G' HL' HG'. apply HQ. split; auto. congruence.
  - destruct (gapok_vals _ _ HG) as (ys & -> & HP). rewrite map_length. apply swap_ranges_shift_wp; auto. { intros ->. auto. }
    intros ys' HP'. apply HQ. simpl. now rewrite HP, HP'.
Qed.
End Gap.

Lemma gapok_part : forall {A} ext buf (g1 g2 : mem A), gapok ext buf (g1 ++ g2) -> exists b1, gapok ext b1 g1 /\ (forall g1', gapok ext b1 g1' -> gapok ext buf (g1' ++ g2)).
Proof.
  intros A [] buf g1 g2 H.
  - destruct H as [H HL]. apply Forall_app in H as [H1 H2]. rewrite app_length in HL. exists (firstn (length g1) buf). split.
    + split; auto. rewrite firstn_length. lia.
    + intros g1' [H1' HL']. split. { now apply Forall_app. } rewrite app_length, HL', firstn_length. lia.
  - destruct (gapok_vals _ _ H) as (ys & E & HP). symmetry in E. apply map_eq_app in E as (y1 & y2 & -> & <- & <-).
    exists y1. split. { simpl. auto. } simpl. intros g1' HG. rewrite HP, map_app, HG. auto.
Qed.

Section Merge.
Context {A T : Type} (comp : T -> T -> bool) (proj : A -> T) (triv : bool).
Notation lt := (by_proj comp proj).
Implicit Types (pre post G : mem A).

Lemma compare_pos : forall x y, (0 <? compare comp proj x y)%Z = negb (lt x y) && lt y x.
Proof. intros. unfold compare, by_proj. destruct (comp (proj x) (proj y)); auto. destruct (comp (proj y) (proj x)); auto. Qed.
Lemma wp_compare_at : forall m i j x y (Q : Z -> mem A -> Prop), nth_error m i = Some (Val x) -> nth_error m j = Some (Val y) ->
  Q (compare comp proj x y) m -> wp (compare_at comp proj i j) Q m.
Proof. intros m i j x y Q Hi Hj HQ. unfold compare_at. apply wp_bind. eapply wp_get; eauto. apply wp_bind. eapply wp_get; eauto. Qed.
Lemma nth_at2 : forall X (l1 l2 l3 : list X) c x i, i = length l1 + S (length l2) -> nth_error (l1 ++ c :: l2 ++ x :: l3) i = Some x.
Proof.
  intros X l1 l2 l3 c x i ->. change (c :: l2 ++ x :: l3) with ((c :: l2) ++ x :: l3). rewrite app_assoc. apply nth_at. rewrite app_length. simpl. lia.
Qed.
Lemma wp_compare_2 : forall l1 l2 l3 i j x y (Q : Z -> mem A -> Prop), i = length l1 -> j = length l1 + S (length l2) ->
  Q (compare comp proj x y) (l1 ++ Val x :: l2 ++ Val y :: l3) -> wp (compare_at comp proj i j) Q (l1 ++ Val x :: l2 ++ Val y :: l3).
Proof. intros. eapply wp_compare_at; eauto. { now apply nth_at. } now apply nth_at2. Qed.

Hypothesis HW : strict_weak_order lt.

Lemma merge_left_wp : forall ext buf G L R pre post first middle last out (Q : unit -> mem A -> Prop), gapok ext buf G -> length R <= length G ->
  out = length pre -> first = out + length G -> middle = first + length L -> last = middle + length R ->
  (forall G', gapok ext buf G' -> Q tt (pre ++ map Val (merge lt L R) ++ G' ++ post)) ->
  wp (merge_left comp proj ext first middle last out) Q (pre ++ G ++ map Val L ++ map Val R ++ post).
Proof.
  intros ext buf G L R pre post first middle last out Q HG HLR -> -> -> -> HQ. unfold merge_left.
  apply wp_bind.
  apply wp_loop' with
    (I := fun '(left_it, right_it, out) m => exists O G1 L' G2 R', m = pre ++ map Val O ++ G1 ++ map Val L' ++ G2 ++ map Val R' ++ post /\
       gapok ext buf (G1 ++ G2) /\ O ++ merge lt L' R' = merge lt L R /\ length O + length L' + length R' = length L + length R /\
       length G2 + length R' = length R /\ out = length pre + length O /\ left_it = out + length G1 /\
       right_it = left_it + length L' + length G2)
    (mu := fun '(left_it, right_it, out) => length pre + length L + length R - out).
  - exists [], G, L, [], R. rewrite app_nil_r. cj; auto; try (simpl; lia).
  - lia.
  - intros [[left_it right_it] out] m (O & G1 & L' & G2 & R' & -> & HG1 & HM & HO & H2 & -> & -> & ->).
    pose proof (gapok_len _ _ _ HG) as EG. pose proof (gapok_len _ _ _ HG1) as EG1. rewrite app_length in EG1.
    destruct R' as [|y R'].
    + simpl in HO, H2. match goal with |- wp (if ?b then _ else _) _ _ => destruct b eqn:E end; [|apply Nat.eqb_neq in E; lia].
      apply wp_ret. rewrite merge_nil_r in HM. destruct (Nat.eqb_spec (length pre + length O) (length pre + length O + length G1)) as [E1|E1].
      * assert (G1 = []) as -> by (destruct G1; auto; simpl in E1; lia). apply wp_ret.
        replace (pre ++ map Val O ++ [] ++ map Val L' ++ G2 ++ map Val [] ++ post) with (pre ++ map Val (merge lt L R) ++ G2 ++ post) by (rewrite <- HM; solve_app). auto.
      * destruct (gapok_part _ _ _ _ HG1) as (b1 & Hb1 & Hb2).
        assert (wp (if ext then move_range (length pre + length O + length G1) (length pre + length O + length G1 + length L') (length pre + length O)
                    else swap_ranges (length pre + length O) (length pre + length O + length L') (length pre + length O + length G1))
                 (fun _ m => Q tt m) (pre ++ map Val O ++ G1 ++ map Val L' ++ G2 ++ map Val [] ++ post)) as H.
        { reshape ((pre ++ map Val O) ++ G1 ++ map Val L' ++ (G2 ++ post)). apply gap_shift_wp with (buf := b1); auto; try (lens; fail).
          { intros ->. simpl in E1. lia. } intros _ G' HG'.
          replace ((pre ++ map Val O) ++ map Val L' ++ G' ++ G2 ++ post) with (pre ++ map Val (merge lt L R) ++ (G' ++ G2) ++ post) by (rewrite <- HM; solve_app). auto. }
        replace (length pre + length G + length L) with (length pre + length O + length G1 + length L') by lia.
        replace (length pre + length O + length G1 + length L' - (length pre + length O + length G1)) with (length L') by lia.
        destruct ext; apply wp_bind; (eapply wp_mono; [exact H|]); intros u m Hm; apply wp_ret; auto.
    + simpl length in *. match goal with |- wp (if ?b then _ else _) _ _ => destruct b eqn:E end; [apply Nat.eqb_eq in E; lia|].
      destruct G1 as [|c G1]. { simpl length in *. lia. }
      apply wp_bind. destruct L' as [|x L'].
      * match goal with |- wp (if ?b then _ else _) _ _ => destruct b eqn:E1 end; [|apply Nat.eqb_neq in E1; simpl length in *; lia].
        apply wp_ret. apply wp_bind. reshape ((pre ++ map Val O) ++ c :: (G1 ++ G2) ++ Val y :: map Val R' ++ post).
        eapply transfer_left_wp; [exact HG1|lens|lens|]. intros c' HG'. apply wp_ret. rewrite merge_nil_l in HM. split; [|simpl length in *; lia].
        exists (O ++ [y]), G1, [], (G2 ++ [c']), R'. rewrite merge_nil_l. cj; try (lens; fail); try solve_app.
        -- eapply gapok_perm; [exact HG'|]. rewrite app_assoc. apply Permutation_cons_append.
        -- rewrite <- HM. solve_app.
      * match goal with |- wp (if ?b then _ else _) _ _ => destruct b eqn:E1 end; [apply Nat.eqb_eq in E1; simpl length in *; lia|].
        apply wp_bind. reshape ((pre ++ map Val O ++ c :: G1) ++ Val x :: (map Val L' ++ G2) ++ Val y :: map Val R' ++ post).
        apply wp_compare_2; [lens|lens|]. apply wp_ret. rewrite compare_pos. rewrite merge_cons in HM.
        assert (negb (lt x y) && lt y x = lt y x) as ->. { destruct (lt y x) eqn:EL; [|apply andb_false_r]. rewrite (lt_asym lt HW _ _ EL). auto. }
        destruct (lt y x).
        -- apply wp_bind. reshape ((pre ++ map Val O) ++ c :: (G1 ++ map Val (x :: L') ++ G2) ++ Val y :: map Val R' ++ post).
           eapply transfer_left_wp; [exact HG1|lens|lens|]. intros c' HG'. apply wp_ret. split; [|simpl length in *; lia].
           exists (O ++ [y]), G1, (x :: L'), (G2 ++ [c']), R'. cj; try (lens; fail); try solve_app.
           ++ eapply gapok_perm; [exact HG'|]. rewrite app_assoc. apply Permutation_cons_append.
           ++ rewrite <- HM. solve_app.
        -- apply wp_bind. reshape ((pre ++ map Val O) ++ c :: G1 ++ Val x :: (map Val L' ++ G2 ++ Val y :: map Val R' ++ post)).
           apply transfer_left_wp with (buf := buf) (g := G1 ++ G2); [exact HG1|lens|lens|]. intros c' HG'. apply wp_ret. split; [|simpl length in *; lia].
           exists (O ++ [x]), (G1 ++ [c']), L', G2, (y :: R'). cj; try (lens; fail); try solve_app.
           ++ eapply gapok_perm; [exact HG'|]. rewrite <- app_assoc. simpl. apply Permutation_middle.
           ++ rewrite <- HM. solve_app.
Qed.

(** What the pure merge does at its ends. *)
Lemma merge_end_l : forall u v R, (forall z r, In z v -> In r R -> lt r z = true) -> merge lt (u ++ v) R = merge lt u R ++ v.
Proof.
  induction u as [|x u IH]; intros v R H.
  - rewrite merge_nil_l. simpl. revert H. induction R as [|r R IHR]; intros H. { now rewrite merge_nil_r. }
    destruct v as [|z v]. { now rewrite merge_nil_l, app_nil_r. }
    rewrite merge_cons, H by (now left). simpl. f_equal. apply IHR. intros; apply H; auto. now right.
  - induction R as [|r R IHR]. { now rewrite !merge_nil_r. }
    cbn [app]. rewrite !merge_cons. destruct (lt r x).
    + simpl. f_equal. change (x :: u ++ v) with ((x :: u) ++ v). apply IHR. intros; apply H; auto. now right.
    + simpl. f_equal. apply IH; auto.
Qed.
Lemma merge_end_r : forall L R s, (forall z r, In z L -> In r s -> lt r z = false) -> merge lt L (R ++ s) = merge lt L R ++ s.
Proof.
  induction L as [|x L IH]; intros R s H. { now rewrite !merge_nil_l. }
  induction R as [|r R IHR].
  - cbn [app]. rewrite merge_nil_r. destruct s as [|r s]. { now rewrite merge_nil_r, app_nil_r. }
    rewrite merge_cons, H by (now left). cbn [app]. f_equal. change (r :: s) with ([] ++ r :: s). rewrite IH. { now rewrite merge_nil_r. } intros; apply H; auto. now right.
  - cbn [app]. rewrite !merge_cons. destruct (lt r x).
    + simpl. f_equal. apply IHR.
    + simpl. f_equal. change (r :: R ++ s) with ((r :: R) ++ s). apply IH. intros; apply H; auto. now right.
Qed.
Lemma merge_start_r : forall u v L, (forall x y, In x L -> In y u -> lt y x = true) -> merge lt L (u ++ v) = u ++ merge lt L v.
Proof.
  induction u as [|y u IH]; intros v L H; auto. destruct L as [|x L]. { now rewrite !merge_nil_l. }
  cbn [app]. rewrite merge_cons, H by (now left). f_equal. apply IH. intros; apply H; auto. now right.
Qed.
Lemma merge_start_l : forall u v R, (forall x y, In x u -> In y R -> lt y x = false) -> merge lt (u ++ v) R = u ++ merge lt v R.
Proof.
  induction u as [|x u IH]; intros v R H; auto. destruct R as [|y R]. { now rewrite !merge_nil_r. }
  cbn [app]. rewrite merge_cons, H by (now left). f_equal. apply IH. intros; apply H; auto. now right.
Qed.

Lemma sorted_app_l : forall a b, sorted lt (a ++ b) -> sorted lt a.
Proof. intros a b H. now apply sorted_app in H. Qed.
Lemma sorted_app_r : forall a b, sorted lt (a ++ b) -> sorted lt b.
Proof. intros a b H. now apply sorted_app in H. Qed.
Lemma sorted_last_max : forall a x z, sorted lt (a ++ [x]) -> In z (a ++ [x]) -> le lt z x.
Proof.
  intros a x z H Hz. apply sorted_app in H as (_ & _ & H). apply in_app_iff in Hz as [Hz|[->|[]]]; [|now apply le_refl]. apply H; auto. now left.
Qed.
Lemma sorted_head_min : forall a x z, sorted lt (x :: a) -> In z (x :: a) -> le lt x z.
Proof. intros a x z H [->|Hz]; [now apply le_refl|]. apply sorted_cons in H as [H _]. auto. Qed.

Lemma compare_pos' : forall x y, (0 <? compare comp proj x y)%Z = lt y x.
Proof. intros x y. rewrite compare_pos. destruct (lt y x) eqn:EL; [|apply andb_false_r]. now rewrite (lt_asym lt HW _ _ EL). Qed.
Lemma compare_le : forall x y, (compare comp proj x y <=? 0)%Z = negb (lt y x).
Proof. intros x y. rewrite <- compare_pos', <- Z.leb_antisym. reflexivity. Qed.
Lemma compare_neg : forall x y, (compare comp proj x y <? 0)%Z = lt x y.
Proof. intros. unfold compare, by_proj. destruct (comp (proj x) (proj y)); auto. destruct (comp (proj y) (proj x)); auto. Qed.

(** The state of merge_right. *)
Definition mr (buf L R L' R' O : list A) pre post (G1 G2 m : mem A) : Prop :=
  m = pre ++ map Val L' ++ G2 ++ map Val R' ++ G1 ++ map Val O ++ post /\ gapok false buf (G1 ++ G2) /\ merge lt L' R' ++ O = merge lt L R /\
  sorted lt L' /\ sorted lt R' /\ length G2 + length L' = length L /\ length L' + length R' + length O = length L + length R.

Lemma mr_left : forall buf L R l x R' O pre post G1 G2 m p0 p1 (Q : unit -> mem A -> Prop), mr buf L R (l ++ [x]) R' O pre post G1 G2 m -> length L <= length buf ->
  (forall z, In z R' -> lt z x = true) ->
  p1 = length pre + length l -> p0 = length pre + length l + length G2 + length R' + length G1 ->
  (forall G1' G2' m', mr buf L R l R' (x :: O) pre post G1' G2' m' -> length G1 = S (length G1') -> length G2' = S (length G2) -> Q tt m') -> wp (swap p0 p1) Q m.
Proof.
  intros buf L R l x R' O pre post G1 G2 m p0 p1 Q (-> & HG & HM & SL & SR & HL2 & HL) HB HX -> -> HQ.
  assert (length (G1 ++ G2) = length buf) as EG by (eapply gapok_len; eauto). rewrite app_length in *. simpl length in *.
  destruct (@exists_last _ G1) as (g & c & ->). { intros ->. simpl in EG. lia. }
  rewrite app_length in *. simpl length in *.
  reshape ((pre ++ map Val l) ++ Val x :: (G2 ++ map Val R' ++ g) ++ c :: map Val O ++ post).
  change (swap (length pre + length l + length G2 + length R' + (length g + 1)) (length pre + length l)) with
    (@transfer A false (length pre + length l + length G2 + length R' + (length g + 1)) (length pre + length l)).
  assert (gapok false buf (c :: g ++ G2)) as HG'. { eapply gapok_perm; [exact HG|]. rewrite <- app_assoc. simpl. symmetry. apply Permutation_middle. }
  eapply transfer_right_wp; [exact HG'|lens|lens|]. intros c' Hc'. apply (HQ g (c' :: G2)); [|lens|lens]. split; [solve_app|]. cj; auto; try (lens; fail).
  - eapply gapok_perm; [exact Hc'|]. apply Permutation_middle.
  - rewrite merge_end_l in HM. { rewrite <- HM. solve_app. } intros z r [<-|[]] Hr. auto.
  - now apply sorted_app_l in SL.
Qed.
Lemma mr_right : forall buf L R L' r y O pre post G1 G2 m p0 p2 (Q : unit -> mem A -> Prop), mr buf L R L' (r ++ [y]) O pre post G1 G2 m -> length L <= length buf ->
  (forall z, In z L' -> lt y z = false) -> G1 <> [] ->
  p2 = length pre + length L' + length G2 + length r -> p0 = length pre + length L' + length G2 + length r + length G1 ->
  (forall G1' m', mr buf L R L' r (y :: O) pre post G1' G2 m' -> length G1' = length G1 -> Q tt m') -> wp (swap p0 p2) Q m.
Proof.
  intros buf L R L' r y O pre post G1 G2 m p0 p2 Q (-> & HG & HM & SL & SR & HL2 & HL) HB HX HN -> -> HQ.
  destruct (@exists_last _ G1) as (g & c & ->); auto.
  rewrite app_length in *. simpl length in *.
  reshape ((pre ++ map Val L' ++ G2 ++ map Val r) ++ Val y :: g ++ c :: map Val O ++ post).
  change (swap (length pre + length L' + length G2 + length r + (length g + 1)) (length pre + length L' + length G2 + length r)) with
    (@transfer A false (length pre + length L' + length G2 + length r + (length g + 1)) (length pre + length L' + length G2 + length r)).
  assert (gapok false buf (c :: g ++ G2)) as HG'. { eapply gapok_perm; [exact HG|]. rewrite <- app_assoc. simpl. symmetry. apply Permutation_middle. }
  eapply transfer_right_wp; [exact HG'|lens|lens|]. intros c' Hc'. apply (HQ (c' :: g)); [|lens]. split; [solve_app|]. cj; auto; try (lens; fail).
  - rewrite merge_end_r in HM. { rewrite <- HM. solve_app. } intros z r' Hz [<-|[]]. auto.
  - now apply sorted_app_l in SR.
Qed.

Lemma mr_compare : forall buf L R l x r y O pre post G1 G2 m p1 p2' (Q : Z -> mem A -> Prop), mr buf L R (l ++ [x]) (r ++ [y]) O pre post G1 G2 m ->
  p1 = length pre + length l -> p2' = length pre + length l + 1 + length G2 + length r -> Q (compare comp proj x y) m -> wp (compare_at comp proj p1 p2') Q m.
Proof.
  intros buf L R l x r y O pre post G1 G2 m p1 p2' Q (-> & _) -> -> HQ.
  eapply wp_compare_at; [| |exact HQ].
  - replace (pre ++ map Val (l ++ [x]) ++ G2 ++ map Val (r ++ [y]) ++ G1 ++ map Val O ++ post) with
      ((pre ++ map Val l) ++ Val x :: (G2 ++ map Val (r ++ [y]) ++ G1 ++ map Val O ++ post)) by solve_app. apply nth_at. lens.
  - replace (pre ++ map Val (l ++ [x]) ++ G2 ++ map Val (r ++ [y]) ++ G1 ++ map Val O ++ post) with
      ((pre ++ map Val (l ++ [x]) ++ G2 ++ map Val r) ++ Val y :: (G1 ++ map Val O ++ post)) by solve_app. apply nth_at. lens.
Qed.

Lemma merge_right_wp : forall buf G L R pre post first middle last out (Q : unit -> mem A -> Prop), gapok false buf G -> L <> [] -> length L <= length G ->
  sorted lt L -> sorted lt R -> first = length pre -> middle = first + length L -> last = middle + length R -> out = last + length G ->
  (forall G', gapok false buf G' -> Q tt (pre ++ G' ++ map Val (merge lt L R) ++ post)) ->
  wp (merge_right comp proj first middle last out) Q (pre ++ map Val L ++ map Val R ++ G ++ post).
Proof.
  intros buf G L R pre post first middle last out Q HG HN HL SL SR -> -> -> -> HQ. unfold merge_right.
  assert (length G = length buf) as EG by (eapply gapok_len; eauto).
  apply wp_bind.
  apply wp_loop' with
    (I := fun '(p1, p2', p0) m => exists L' R' O G1 G2, mr buf L R L' R' O pre post G1 G2 m /\ L' <> [] /\ p1 = length pre + length L' - 1 /\
       p2' = length pre + length L' + length G2 + length R' /\ p0 = p2' + length G1 - 1)
    (mu := fun '(p1, p2', p0) => p0 - length pre - length G).
  - exists L, R, [], G, []. split; [|cj; auto; lens]. split; [solve_app|]. rewrite !app_nil_r. cj; auto; lens.
  - lens.
  - intros [[p1 p2'] p0] m (L' & R' & O & G1 & G2 & HM & HN' & -> & -> & ->).
    destruct (exists_last HN') as (l & x & ->). clear HN'. rewrite app_length. simpl length.
    assert (length (G1 ++ G2) = length buf) as EG1 by (eapply gapok_len, HM). rewrite app_length in EG1.
    assert (length G2 + length l + 1 = length L) as E2. { destruct HM as (_ & _ & _ & _ & _ & HM & _). rewrite app_length in HM. simpl in HM. lia. }
    assert (length l + 1 + length R' + length O = length L + length R) as E3. { destruct HM as (_ & _ & _ & _ & _ & _ & HM). rewrite app_length in HM. simpl in HM. lia. }
    assert (sorted lt (l ++ [x])) as SL' by apply HM. assert (sorted lt R') as SR' by apply HM.
    destruct (Nat.ltb_spec (length pre) (length pre + (length l + 1) - 1)) as [Hl|Hl].
    + apply wp_bind. assert (R' = [] \/ exists r y, R' = r ++ [y]) as [->|(r & y & ->)].
      { destruct R' as [|a R']; auto. right. destruct (@exists_last _ (a :: R')) as (r & y & E); [discriminate|]. eauto. }
      * match goal with |- wp (if ?b then _ else _) _ _ => destruct b eqn:E1 end; [|apply Nat.eqb_neq in E1; simpl length in *; lia].
        apply wp_ret. apply wp_bind. eapply mr_left; [exact HM|lia|intros z []|lia|simpl length; lia|]. intros G1' G2' m' HM' E4 E5. apply wp_ret. simpl length in *. split; [|lia].
        exists l, [], (x :: O), G1', G2'. cj; auto; try (simpl length; lia). intros ->. simpl in Hl. lia.
      * match goal with |- wp (if ?b then _ else _) _ _ => destruct b eqn:E1 end; [apply Nat.eqb_eq in E1; lens|].
        rewrite app_length in *. simpl length in *. apply wp_bind. eapply mr_compare; [exact HM|lia|lia|]. apply wp_ret. rewrite compare_pos'. destruct (lt y x) eqn:EL.
        -- apply wp_bind. eapply mr_left; [exact HM|lia| |lia|lens|].
           { intros z Hz. eapply le_lt_trans; [exact HW| |exact EL]. eapply sorted_last_max; eauto. }
           intros G1' G2' m' HM' E4 E5. apply wp_ret. split; [|lia].
           exists l, (r ++ [y]), (x :: O), G1', G2'. cj; auto; try (lens; fail). intros ->. simpl in Hl. lia.
        -- apply wp_bind. eapply mr_right; [exact HM|lia| | |lens|lens|].
           { intros z Hz. assert (le lt z x) as Hzx by (eapply sorted_last_max; eauto). exact (le_trans lt HW z x y Hzx EL). }
           { intros ->. simpl in EG1. lia. }
           intros G1' m' HM' E4. apply wp_ret. split; [|lia].
           exists (l ++ [x]), r, (y :: O), G1', G2. cj; auto; try (lens; fail). destruct l; discriminate.
    + apply wp_ret. assert (l = []) as -> by (destruct l; auto; simpl in Hl; lia). simpl length in *. simpl app in *.
      match goal with |- wp (let* _ := (if ?b then _ else _) in _) _ _ => destruct b eqn:E1 end; [|apply Nat.eqb_neq in E1; lia].
      apply wp_bind. apply wp_bind.
      apply wp_loop' with
        (I := fun '(p2', p0) m => exists R' O G1, mr buf L R [x] R' O pre post G1 G2 m /\ p2' = length pre + 1 + length G2 + length R' /\ p0 = p2' + length G1 - 1 /\ G1 <> [])
        (mu := fun '(p2', p0) => p2' - (length pre + 1 + length G2)).
      { exists R', O, G1. cj; auto. intros ->. simpl in *. lia. }
      { lia. }
      intros [p2' p0] m1 (R1 & O1 & G1' & HM' & -> & -> & HN').
      assert (length (G1' ++ G2) = length buf) as EG1' by (eapply gapok_len, HM'). rewrite app_length in EG1'.
      assert (sorted lt R1) as SR1 by apply HM'.
      (* the end, once the first element of the left range goes before what remains *)
      assert ((forall z, In z R1 -> lt z x = true) ->
        wp (swap (length pre + 1 + length G2 + length R1 + length G1' - 1) (length pre + 1 - 1);;
            ret (length pre + 1 + length G2 + length R1, length pre + 1 + length G2 + length R1 + length G1' - 1))
          (fun x0 m' => wp (let (p2', p0) := x0 in if p2' =? p0 then ret tt else
              loop (S (length pre + length L + length R - length pre)) (fun '(p2'0, p3) =>
                 if length pre + length L <? p2'0 then swap (p3 - 1) (p2'0 - 1);; ret (inl (p2'0 - 1, p3 - 1)) else ret (inr tt)) (p2', p0)) Q m') m1) as HEND.
      { intros HX. apply wp_bind. eapply mr_left with (l := []); [exact HM'|lia|exact HX|simpl; lia|simpl length; lia|].
        intros Ga Gb m2 HM2 Ea Eb. apply wp_ret. simpl length in *.
        assert (length (Ga ++ Gb) = length buf) as EGa by (eapply gapok_len, HM2). rewrite app_length in EGa.
        destruct (Nat.eqb_spec (length pre + 1 + length G2 + length R1) (length pre + 1 + length G2 + length R1 + length G1' - 1)) as [E6|E6].
        - apply wp_ret. assert (Ga = []) as -> by (destruct Ga; auto; simpl in *; lia).
          destruct HM2 as (-> & HG2 & HMM & _). rewrite merge_nil_l in HMM. simpl app in HG2.
          replace (pre ++ map Val [] ++ Gb ++ map Val R1 ++ [] ++ map Val (x :: O1) ++ post) with (pre ++ Gb ++ map Val (merge lt L R) ++ post) by (rewrite <- HMM; solve_app). now apply HQ.
        - assert (length Gb = length L) as EGb by lia. clear HM'. rename R1 into R2. rename O1 into O2.
          remember (x :: O2) as O3 eqn:HO3. clear HO3 SR1 HN' EG1'.
          apply wp_loop' with
            (I := fun '(p2', p0) m => exists R' O G', mr buf L R [] R' O pre post G' Gb m /\ p2' = length pre + length L + length R' /\ p0 = p2' + length G' /\ G' <> [])
            (mu := fun '(p2', p0) => p2' - (length pre + length L)).
          + exists R2, O3, Ga. cj; auto; try lia. destruct Ga; [simpl in *; lia|discriminate].
          + destruct HM2 as (_ & _ & _ & _ & _ & _ & HM2). simpl in HM2. lia.
          + intros [p2' p0] m3 (R3 & O4 & G' & HM3 & -> & -> & HN3).
            destruct (Nat.ltb_spec (length pre + length L) (length pre + length L + length R3)) as [E7|E7].
            * destruct (@exists_last _ R3) as (r & y & ->). { intros ->. simpl in E7. lia. } rewrite app_length in *. simpl length in *.
              apply wp_bind. eapply mr_right; [exact HM3|lia|intros z []|exact HN3|simpl length; lia|simpl length; lia|].
              intros G'' m4 HM4 E8. apply wp_ret. split; [|lia]. exists r, (y :: O4), G''. cj; auto; try lia. intros ->. simpl in E8. destruct G'; [congruence|discriminate E8].
            * apply wp_ret. assert (R3 = []) as -> by (destruct R3; auto; simpl in E7; lia).
              destruct HM3 as (-> & HG2 & HMM & _). rewrite merge_nil_l in HMM. simpl app in HMM.
              replace (pre ++ map Val [] ++ Gb ++ map Val [] ++ G' ++ map Val O4 ++ post) with (pre ++ (Gb ++ G') ++ map Val (merge lt L R) ++ post) by (rewrite <- HMM; solve_app).
              apply HQ. eapply gapok_perm; [exact HG2|]. apply Permutation_app_comm. }
      apply wp_bind. assert (R1 = [] \/ exists r y, R1 = r ++ [y]) as [->|(r & y & ->)].
      { destruct R1 as [|a R1]; auto. right. destruct (@exists_last _ (a :: R1)) as (r & y & E); [discriminate|]. eauto. }
      * match goal with |- wp (if ?b then _ else _) _ _ => destruct b eqn:E4 end; [|apply Nat.eqb_neq in E4; simpl length in *; lia].
        apply wp_ret. apply wp_ret. apply HEND. intros z [].
      * rewrite app_length in *. simpl length in *.
        match goal with |- wp (if ?b then _ else _) _ _ => destruct b eqn:E4 end; [apply Nat.eqb_eq in E4; lia|].
        apply wp_bind. eapply mr_compare with (l := []); [exact HM'|simpl; lia|simpl length; lia|]. apply wp_ret. rewrite compare_pos'. destruct (lt y x) eqn:EL.
        -- apply wp_ret. apply HEND. intros z Hz. eapply le_lt_trans; [exact HW| |exact EL]. eapply sorted_last_max; eauto.
        -- apply wp_bind. eapply mr_right; [exact HM'|lia| |exact HN'|simpl length; lia|simpl length; lia|].
           { intros z [<-|[]]. auto. }
           intros G1'' m' HM'' E5. apply wp_ret. split; [|lia]. exists r, (y :: O1), G1''. cj; auto; try lia. intros ->. simpl in E5. destruct G1'; [congruence|discriminate E5].
Qed.
End Merge.
