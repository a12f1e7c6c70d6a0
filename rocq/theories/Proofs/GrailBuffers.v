(** grail_sort: the merge of two streams of blocks. *)
From Coq Require Import List Arith Lia Permutation Bool ZArith.
From Verif Require Import Spec.Order Lang.Mem Proofs.Wp Proofs.OrderLib Model.Rotate Proofs.Rotate Proofs.RotateGcd Model.Search Proofs.Search Model.Grail Proofs.GrailMerge Proofs.GrailSmart.
Import ListNotations.
Local Arguments nth_error : simpl never.
Local Arguments upd : simpl never.
Local Arguments loop : simpl never.
Local Arguments gapok : simpl never.
Local Arguments Z.sub : simpl never.

Lemma nth_app_l : forall X (l1 l2 : list X) i x, nth_error l1 i = Some x -> nth_error (l1 ++ l2) i = Some x.
Proof. intros X l1 l2 i x H. rewrite nth_error_app1; auto. apply nth_error_Some. congruence. Qed.

Section Buffers.
Context {A T : Type} (comp : T -> T -> bool) (proj : A -> T) (triv : bool).
Notation lt := (by_proj comp proj).
Implicit Types (pre post G : mem A).
Hypothesis HW : strict_weak_order lt.

(** The room before the elements that are merged. *)
Definition gapm (mode : buffering) (buf : list A) (lblock : nat) G : Prop :=
  match mode with NoBuffer => G = [] | Swaps => gapok false buf G /\ length G = lblock | Extra => gapok true buf G /\ length G = lblock end.

Lemma swap_ranges_shift_wp' : forall xs ys pre post f1 l1 f2 (Q : nat -> mem A -> Prop),
  f2 = length pre -> f1 = f2 + length ys -> l1 = f1 + length xs -> ys <> [] ->
  (forall ys' r, Permutation ys ys' -> Q r (pre ++ map Val xs ++ map Val ys' ++ post)) ->
  wp (swap_ranges f1 l1 f2) Q (pre ++ map Val ys ++ map Val xs ++ post).
Proof.
  intros xs ys pre post f1 l1 f2 Q -> -> -> HN HQ. unfold swap_ranges.
  apply wp_loop' with
    (I := fun '(g1, g2) m => exists x1 x2 ys', xs = x1 ++ x2 /\ Permutation ys ys' /\
       m = pre ++ map Val x1 ++ map Val ys' ++ map Val x2 ++ post /\ g2 = length pre + length x1 /\ g1 = length pre + length x1 + length ys)
    (mu := fun '(g1, g2) => length pre + length xs - g2).
  - exists [], xs, ys. cj; auto; lens.
  - lia.
  - intros [g1 g2] m (x1 & x2 & ys' & -> & HP & -> & -> & ->). rewrite app_length in *. destruct x2 as [|x x2].
    + simpl length. match goal with |- wp (if ?b then _ else _) _ _ => destruct b eqn:E end; [|apply Nat.eqb_neq in E; lia]. apply wp_ret. rewrite app_nil_r in HQ. now apply HQ.
    + simpl length in *. match goal with |- wp (if ?b then _ else _) _ _ => destruct b eqn:E end; [apply Nat.eqb_eq in E; lia|].
      pose proof (Permutation_length HP) as HL.
      destruct ys' as [|y ys']. { destruct ys; [congruence|discriminate HL]. }
      apply wp_bind. reshape ((pre ++ map Val x1) ++ Val y :: map Val ys' ++ Val x :: map Val x2 ++ post).
      simpl in HL. apply wp_swap_at'; try (lens; fail). apply wp_ret. split; [|lia].
      exists (x1 ++ [x]), x2, (ys' ++ [y]). cj; try (lens; fail); try solve_app. rewrite HP. apply Permutation_cons_append.
Qed.

Lemma shift_rest_wp : forall mode buf lblock G R pre post prest lrest (Q : unit -> mem A -> Prop), gapm mode buf lblock G -> 0 < lblock -> length R <= lblock ->
  prest = length pre + length G -> lrest = length R ->
  (forall G', gapm mode buf lblock G' -> Q tt (pre ++ map Val R ++ G' ++ post)) ->
  wp (shift_rest mode prest lrest lblock) Q (pre ++ G ++ map Val R ++ post).
Proof.
  intros mode buf lblock G R pre post prest lrest Q HG HB HR -> -> HQ. destruct mode; simpl in *.
  - apply wp_ret. subst G. specialize (HQ [] eq_refl). exact HQ.
  - destruct HG as [HG HL]. apply wp_bind. replace (length pre + length G - (lblock - length R)) with (length pre + length G - lblock + length R) by lia.
    apply (gap_shift_wp false buf); auto; try lia. { intros ->. simpl in HL. lia. } intros r G' HG'. apply wp_ret. apply HQ. split; auto.
    rewrite <- HL, (gapok_len _ _ _ HG), (gapok_len _ _ _ HG'). auto.
  - destruct HG as [HG HL]. apply wp_bind.
    apply (gap_shift_wp true buf); auto; try lia. { intros ->. simpl in HL. lia. } intros r G' HG'. apply wp_ret. apply HQ. split; auto.
    rewrite <- HL, (gapok_len _ _ _ HG), (gapok_len _ _ _ HG'). auto.
Qed.
Lemma shift_last_wp : forall mode buf lblock G R pre post prest lrest (Q : unit -> mem A -> Prop), gapm mode buf lblock G -> 0 < lblock -> length R <= lblock ->
  prest = length pre + length G -> lrest = length R ->
  (forall G', gapm mode buf lblock G' -> Q tt (pre ++ map Val R ++ G' ++ post)) ->
  wp (shift_last mode prest lrest lblock) Q (pre ++ G ++ map Val R ++ post).
Proof.
  intros mode buf lblock G R pre post prest lrest Q HG HB HR -> -> HQ. destruct mode.
  - eapply (shift_rest_wp NoBuffer buf lblock); eauto.
  - destruct HG as [HG HL]. simpl. apply wp_bind. destruct (gapok_vals _ _ HG) as (ys & -> & HP). rewrite map_length in *.
    apply swap_ranges_shift_wp'; try lia. { intros ->. simpl in HL. lia. } intros ys' r HP'. apply wp_ret. apply HQ. split.
    + unfold gapok. now rewrite HP, HP'.
    + rewrite map_length. now rewrite <- (Permutation_length HP').
  - eapply (shift_rest_wp Extra buf lblock); eauto.
Qed.

Lemma smart_merge_wp : forall mode buf lblock G L R t pre post prest lrest (Q : nat * Z -> mem A -> Prop), gapm mode buf lblock G -> 0 < lblock -> length R = lblock ->
  (t = 0%Z \/ t = 1%Z) -> sorted lt L -> sorted lt R -> prest = length pre + length G -> lrest = length L ->
  (forall O W w G', smart comp proj t L R O W w -> gapm mode buf lblock G' -> Q (length W, w) (pre ++ map Val O ++ G' ++ map Val W ++ post)) ->
  wp (smart_merge comp proj triv mode prest lrest lblock t) Q (pre ++ G ++ map Val L ++ map Val R ++ post).
Proof.
  intros mode buf lblock G L R t pre post prest lrest Q HG HB HR Ht SL SR -> -> HQ. destruct mode; simpl in *.
  - subst G. simpl app in *. eapply (smart_merge_without_buffer_wp comp proj triv HW L R); auto; try (simpl length; lia).
    intros O W w HS. exact (HQ O W w [] HS eq_refl).
  - destruct HG as [HG HL]. rewrite <- HL in *. eapply smart_merge_with_buffer_wp; eauto; try (simpl length; lia). { intros ->. simpl in HB. lia. }
    intros O W w G' HS HG'. apply HQ; auto. split; auto. now rewrite (gapok_len _ _ _ HG), (gapok_len _ _ _ HG').
  - destruct HG as [HG HL]. rewrite <- HL in *. eapply smart_merge_with_buffer_wp; eauto; try (simpl length; lia). { intros ->. simpl in HB. lia. }
    intros O W w G' HS HG'. apply HQ; auto. split; auto. now rewrite (gapok_len _ _ _ HG), (gapok_len _ _ _ HG').
Qed.
Lemma merge_final_wp : forall mode buf lblock G L R pre post first middle last (Q : unit -> mem A -> Prop), gapm mode buf lblock G -> length R <= lblock ->
  sorted lt L -> sorted lt R -> first = length pre + length G -> middle = first + length L -> last = middle + length R ->
  (forall G', gapm mode buf lblock G' -> Q tt (pre ++ map Val (merge lt L R) ++ G' ++ post)) ->
  wp (merge_final comp proj triv mode first middle last lblock) Q (pre ++ G ++ map Val L ++ map Val R ++ post).
Proof.
  intros mode buf lblock G L R pre post first middle last Q HG HR SL SR -> -> -> HQ. destruct mode; simpl in *.
  - subst G. simpl app in *. eapply merge_without_buffer_wp; auto; try (simpl length; lia). exact (HQ [] eq_refl).
  - destruct HG as [HG HL]. eapply merge_left_wp; eauto; try lia.
    intros G' HG'. apply HQ; auto. split; auto. now rewrite <- HL, (gapok_len _ _ _ HG), (gapok_len _ _ _ HG').
  - destruct HG as [HG HL]. eapply merge_left_wp; eauto; try lia.
    intros G' HG'. apply HQ; auto. split; auto. now rewrite <- HL, (gapok_len _ _ _ HG), (gapok_len _ _ _ HG').
Qed.

(** A sequence of blocks, each of a stream. *)
Local Notation blk := (Z * list A)%type.
Implicit Types (bs regs trail : list blk).
Definition stream (t : Z) bs : list A := concat (map snd (filter (fun b => (fst b =? t)%Z) bs)).
Definition ordered (b1 b2 : blk) : Prop := fst b1 <> fst b2 -> forall x y, hd_error (snd b1) = Some x -> hd_error (snd b2) = Some y -> before comp proj (fst b1) x y = true.
Inductive inter : list blk -> Prop :=
| inter_nil : inter []
| inter_cons : forall b bs, (forall b', In b' bs -> ordered b b') -> inter bs -> inter (b :: bs).
Definition tags bs : Prop := forall b, In b bs -> (fst b = 0%Z \/ fst b = 1%Z).

Lemma stream_cons : forall t b bs, stream t (b :: bs) = (if (fst b =? t)%Z then snd b else []) ++ stream t bs.
Proof. intros. unfold stream. simpl. destruct (fst b =? t)%Z; auto. Qed.
Lemma stream_app : forall t b1 b2, stream t (b1 ++ b2) = stream t b1 ++ stream t b2.
Proof. intros. unfold stream. now rewrite filter_app, map_app, concat_app. Qed.
Lemma stream_in : forall t bs x, In x (stream t bs) -> exists b, In b bs /\ fst b = t /\ In x (snd b).
Proof.
  intros t bs x H. unfold stream in H. apply in_concat in H as (l & Hl & Hx). apply in_map_iff in Hl as (b & <- & Hb). apply filter_In in Hb as [Hb E]. apply Z.eqb_eq in E. eauto.
Qed.
Lemma stream_part : forall t bs b, In b bs -> fst b = t -> sorted lt (stream t bs) -> sorted lt (snd b).
Proof.
  induction bs as [|b' bs IH]; intros b Hb E HS; [destruct Hb|]. rewrite stream_cons in HS. destruct Hb as [->|Hb].
  - rewrite E, Z.eqb_refl in HS. eapply sorted_app_l; eauto.
  - apply IH; auto. eapply sorted_app_r; eauto.
Qed.

Lemma before_trans : forall t x y z w, le lt x y -> before comp proj t y z = true -> le lt z w -> before comp proj t x w = true.
Proof.
  intros t x y z w H1 H2 H3. unfold before in *. destruct (t =? 0)%Z.
  - apply negb_true_iff in H2. apply negb_true_iff. exact (le_trans lt HW _ _ _ H1 (le_trans lt HW _ _ _ H2 H3)).
  - eapply le_lt_trans; [exact HW|exact H1|]. eapply lt_le_trans; eauto.
Qed.
Lemma mergez_start : forall t R X Y, (forall x y, In x R -> In y Y -> before comp proj t x y = true) -> mergez comp proj t (R ++ X) Y = R ++ mergez comp proj t X Y.
Proof.
  intros t R X Y H. unfold mergez, before in *. destruct (t =? 0)%Z.
  - apply merge_start_l. intros x y Hx Hy. specialize (H x y Hx Hy). now apply negb_true_iff in H.
  - apply merge_start_r. intros x y Hx Hy. auto.
Qed.

(** A fragment of a stream that is followed by a block of that stream comes out. *)
Lemma mergez_same : forall t R N bs, inter ((t, N) :: bs) -> N <> [] -> (t = 0%Z \/ t = 1%Z) ->
  sorted lt (R ++ stream t ((t, N) :: bs)) -> sorted lt (stream (1 - t) ((t, N) :: bs)) ->
  mergez comp proj t (R ++ stream t ((t, N) :: bs)) (stream (1 - t) ((t, N) :: bs)) = R ++ mergez comp proj t (stream t ((t, N) :: bs)) (stream (1 - t) ((t, N) :: bs)).
Proof.
  intros t R N bs HI HN Ht S1 S2. inversion HI as [|b bs' HO HI' E]; subst. apply mergez_start. intros x y Hx Hy.
  rewrite stream_cons in Hy. simpl fst in Hy. destruct (Z.eqb_spec t (1 - t)); [lia|]. simpl in Hy.
  destruct (stream_in _ _ _ Hy) as (b & Hb & Eb & Hyb). destruct N as [|n0 N]; [congruence|].
  destruct b as [tb b]. simpl in *. destruct b as [|z b]; [destruct Hyb|]. subst tb.
  apply before_trans with (y := n0) (z := z).
  - rewrite stream_cons in S1. simpl fst in S1. rewrite Z.eqb_refl in S1. simpl snd in S1. apply sorted_app in S1 as (_ & _ & S1). apply S1; auto. now left.
  - apply (HO _ Hb); auto.
  - rewrite stream_cons in S2. simpl fst in S2. destruct (Z.eqb_spec t (1 - t)); [lia|]. eapply sorted_head_min; [exact HW| |exact Hyb].
    eapply stream_part with (b := ((1 - t)%Z, z :: b)); eauto. 
Qed.

Lemma smart_suffix : forall t L R O W w, smart comp proj t L R O W w -> (w = t /\ exists L0, L = L0 ++ W) \/ (w = (1 - t)%Z /\ exists R0, R = R0 ++ W).
Proof.
  induction 1 as [R|L|x L y R O W w HB HS IH|x L y R O W w HB HS IH].
  - right. split; auto. now exists [].
  - left. split; auto. now exists [].
  - destruct IH as [(E & L0 & ->)|(E & R0 & E')]; [left|right]; split; auto. { now exists (x :: L0). } eauto.
  - destruct IH as [(E & L0 & E')|(E & R0 & ->)]; [left|right]; split; auto. { eauto. } now exists (y :: R0).
Qed.

Lemma stream_of_wp : forall m i j k km (Q : Z -> mem A -> Prop), nth_error m i = Some (Val k) -> nth_error m j = Some (Val km) ->
  Q (if lt k km then 0%Z else 1%Z) m -> wp (stream_of comp proj i j) Q m.
Proof.
  intros m i j k km Q Hi Hj HQ. unfold stream_of. apply wp_bind. eapply wp_compare_at; eauto. rewrite compare_neg. now apply wp_ret.
Qed.

Definition cells bs : list A := concat (map snd bs).
Lemma cells_length : forall bs lblock, (forall b, In b bs -> length (snd b) = lblock) -> length (cells bs) = length bs * lblock.
Proof. induction bs as [|b bs IH]; intros lblock H; auto. unfold cells in *. simpl. rewrite app_length, IH with (lblock := lblock), H; auto. { now left. } intros; apply H; now right. Qed.

Lemma merge_buffers_left_wp : forall mode buf lblock G regs trail Tl pre post keys midkey arr (Q : unit -> mem A -> Prop),
  let fin := (1%Z, Tl) :: trail in
  gapm mode buf lblock G -> 0 < lblock -> length Tl <= lblock -> (Tl = [] -> trail = [] /\ regs <> []) ->
  (forall b, In b (regs ++ trail) -> length (snd b) = lblock) -> (forall b, In b trail -> fst b = 0%Z) -> tags regs ->
  inter (regs ++ fin) -> sorted lt (stream 0 (regs ++ fin)) -> sorted lt (stream 1 (regs ++ fin)) ->
  (forall i b, nth_error regs i = Some b -> exists k km, nth_error pre (keys + i) = Some (Val k) /\ nth_error pre midkey = Some (Val km) /\ fst b = if lt k km then 0%Z else 1%Z) ->
  arr = length pre + length G ->
  (forall G', gapm mode buf lblock G' -> Q tt (pre ++ map Val (merge lt (stream 0 (regs ++ fin)) (stream 1 (regs ++ fin))) ++ G' ++ post)) ->
  wp (merge_buffers_left comp proj triv mode keys midkey arr (length regs) lblock (length trail) (length Tl)) Q (pre ++ G ++ map Val (cells regs ++ cells trail ++ Tl) ++ post).
Proof.
  intros mode buf lblock G regs trail Tl pre post keys midkey arr Q fin HG HB HT HNT HL HTR HTG HI S0 S1 HK -> HQ. unfold merge_buffers_left.
  assert (stream 0 fin = cells trail /\ stream 1 fin = Tl) as [F0 F1].
  { unfold fin. rewrite !stream_cons. simpl fst. simpl snd. change (1 =? 0)%Z with false. change (1 =? 1)%Z with true. cbv iota. clear - HTR.
    assert (stream 0 trail = cells trail /\ stream 1 trail = []) as [-> ->]; [|split; auto; apply app_nil_r].
    induction trail as [|b bs IH]; [split; auto|]. destruct IH as [E1 E2]; [intros; apply HTR; now right|]. rewrite !stream_cons, E1, E2, HTR by (now left). split; reflexivity. }
  assert (length (cells trail) = length trail * lblock) as LT. { apply cells_length. intros; apply HL, in_app_iff; auto. }
  destruct regs as [|b0 regs].
  - simpl length. rewrite Nat.eqb_refl. simpl app in *. rewrite F0, F1 in *.
    reshape (pre ++ G ++ map Val (cells trail) ++ map Val Tl ++ post). eapply merge_final_wp; eauto; try lia.
  - simpl length. change (S (length regs) =? 0) with false. cbv iota.
    destruct (HK 0 b0) as (k & km & Hk & Hkm & Eb0); auto. rewrite Nat.add_0_r in Hk.
    apply wp_bind. eapply stream_of_wp; [apply nth_app_l; exact Hk|apply nth_app_l; exact Hkm|]. rewrite <- Eb0.
    apply wp_bind.
    set (X := merge lt (stream 0 ((b0 :: regs) ++ fin)) (stream 1 ((b0 :: regs) ++ fin))) in *.
    apply wp_loop' with
      (I := fun '(cidx, pidx, lrest, t) m => exists done rem O R G', b0 :: regs = done ++ rem /\ cidx = length done /\ lrest = length R /\ length R <= lblock /\ (t = 0%Z \/ t = 1%Z) /\
         m = pre ++ map Val O ++ G' ++ map Val R ++ map Val (cells rem ++ cells trail ++ Tl) ++ post /\ gapm mode buf lblock G' /\
         pidx = length pre + length O + length G' + length R /\
         X = O ++ mergez comp proj t (R ++ stream t (rem ++ fin)) (stream (1 - t) (rem ++ fin)) /\
         sorted lt (R ++ stream t (rem ++ fin)) /\ sorted lt (stream (1 - t) (rem ++ fin)) /\ inter (rem ++ fin))
      (mu := fun '(cidx, pidx, lrest, t) => S (length regs) - cidx).
    + exists [b0], regs, [], (snd b0), G. assert (length (snd b0) = lblock) as L0 by (apply HL; now left).
      assert (fst b0 = 0%Z \/ fst b0 = 1%Z) as Ht by (apply HTG; now left).
      assert (stream (fst b0) ((b0 :: regs) ++ fin) = snd b0 ++ stream (fst b0) (regs ++ fin)) as E1. { simpl app. rewrite stream_cons, Z.eqb_refl. auto. }
      assert (stream (1 - fst b0) ((b0 :: regs) ++ fin) = stream (1 - fst b0) (regs ++ fin)) as E2. { simpl app. rewrite stream_cons. destruct (Z.eqb_spec (fst b0) (1 - fst b0)); auto. lia. }
      cj; auto; try lia.
      * simpl. rewrite !map_app. unfold cells. solve_app.
      * rewrite <- E1, <- E2. unfold X, mergez. destruct Ht as [->| ->]; reflexivity.
      * rewrite <- E1. destruct Ht as [->| ->]; auto.
      * rewrite <- E2. destruct Ht as [->| ->]; auto.
      * inversion HI; auto.
    + lia.
    + intros [[[cidx pidx] lrest] t] m (done & rem & O & R & G' & ED & -> & -> & HR & Ht & -> & HG' & -> & EX & SR & SO & HI').
      assert (S (length regs) = length done + length rem) as LD. { change (S (length regs)) with (length (b0 :: regs)). now rewrite ED, app_length. }
      replace (length pre + length O + length G' + length R - length R) with (length pre + length O + length G') by lia.
      destruct rem as [|[tn N] rem].
      * destruct (Nat.ltb_spec (length done) (S (length regs))) as [E|E]; [simpl in LD; lia|]. clear E. apply wp_ret.
        simpl app in EX, SR, SO, HI'. replace (length pre + length O + length G' + length R - length R) with (length pre + length O + length G') by lia.
        destruct (Nat.eqb_spec (length Tl) 0) as [E|E].
        -- assert (Tl = []) as ET by (destruct Tl; auto; discriminate). destruct (HNT ET) as [-> _].
           reshape ((pre ++ map Val O) ++ G' ++ map Val R ++ post). { rewrite ET. solve_app. }
           eapply shift_last_wp; eauto; [lens|]. intros G2 HG2.
           replace ((pre ++ map Val O) ++ map Val R ++ G2 ++ post) with (pre ++ map Val X ++ G2 ++ post). { auto. }
           rewrite EX. assert (forall t', (t' = 0%Z \/ t' = 1%Z) -> stream t' fin = []) as EF. { intros t' [->| ->]; [rewrite F0|rewrite F1]; auto. }
           rewrite !EF by lia. rewrite app_nil_r. unfold mergez. destruct (t =? 0)%Z; rewrite ?merge_nil_l, ?merge_nil_r; solve_app.
        -- assert (Tl <> []) as NT by (intros ->; auto). apply wp_bind. destruct Ht as [->| ->].
           ++ change (0 =? 0)%Z with true. cbv iota. apply wp_ret. rewrite F0 in *. change (1 - 0)%Z with 1%Z in *. rewrite F1 in *.
              reshape ((pre ++ map Val O) ++ G' ++ map Val (R ++ cells trail) ++ map Val Tl ++ post).
              eapply merge_final_wp; eauto; try lens. intros G2 HG2.
              replace ((pre ++ map Val O) ++ map Val (merge lt (R ++ cells trail) Tl) ++ G2 ++ post) with (pre ++ map Val X ++ G2 ++ post); [auto|]. rewrite EX. solve_app.
           ++ change (1 =? 0)%Z with false. cbv iota.
              apply wp_bind. reshape ((pre ++ map Val O) ++ G' ++ map Val R ++ map Val (cells trail ++ Tl) ++ post).
              eapply shift_rest_wp; eauto; [lens|]. intros G2 HG2. apply wp_ret.
              assert (gapm mode buf lblock G2 -> length G2 = length G') as LG. { clear - HG' HG2. destruct mode; simpl in *; intros; [now subst|lia|lia]. }
              specialize (LG HG2).
              reshape ((pre ++ map Val O ++ map Val R) ++ G2 ++ map Val (cells trail) ++ map Val Tl ++ post).
              unfold fin in EX, SR, SO. rewrite mergez_same in EX; auto.
              ** fold fin in EX. change (1 - 1)%Z with 0%Z in *. rewrite F0, F1 in EX. fold fin in SO, SR. rewrite F0 in SO. rewrite F1 in SR. 
                 eapply merge_final_wp; eauto; try lens. { eapply sorted_app_r; eauto. } intros G3 HG3.
                 replace ((pre ++ map Val O ++ map Val R) ++ map Val (merge lt (cells trail) Tl) ++ G3 ++ post) with (pre ++ map Val X ++ G3 ++ post); [auto|]. rewrite EX. unfold mergez. simpl (_ =? _)%Z. cbv iota. solve_app.
      * destruct (Nat.ltb_spec (length done) (S (length regs))) as [E|E]; [|simpl in LD; lia]. clear E.
        assert (nth_error (b0 :: regs) (length done) = Some (tn, N)) as Hn. { rewrite ED. now apply nth_at. }
        destruct (HK _ _ Hn) as (k' & km' & Hk' & Hkm' & Etn). simpl in Etn.
        assert (length N = lblock) as LN. { apply (HL (tn, N)). apply in_app_iff. left. rewrite ED. apply in_app_iff. right. now left. }
        assert (tn = 0%Z \/ tn = 1%Z) as Htn by (rewrite Etn; destruct (lt k' km'); auto).
        apply wp_bind. eapply stream_of_wp; [apply nth_app_l; exact Hk'|apply nth_app_l; exact Hkm'|]. rewrite <- Etn. clear k' km' Hk' Hkm' Etn Hn.
        apply wp_bind. destruct (Z.eqb_spec tn t) as [->|Hne].
        -- apply wp_bind. reshape ((pre ++ map Val O) ++ G' ++ map Val R ++ map Val (cells ((t, N) :: rem) ++ cells trail ++ Tl) ++ post).
           eapply shift_rest_wp; eauto; [lens|]. intros G2 HG2. apply wp_ret. apply wp_ret. split; [|lens].
           assert (length G2 = length G') as LG. { clear - HG' HG2. destruct mode; simpl in *; intros; [now subst|lia|lia]. }
           exists (done ++ [(t, N)]), rem, (O ++ R), N, G2. simpl app in EX, SR, SO, HI'. cj; auto; try (lens; fail).
           ++ rewrite ED. solve_app.
           ++ unfold cells. simpl. solve_app.
           ++ rewrite EX. rewrite <- app_assoc. f_equal. rewrite mergez_same; auto.
              ** rewrite !stream_cons. simpl fst. rewrite Z.eqb_refl. destruct (Z.eqb_spec t (1 - t)); [lia|]. auto.
              ** intros ->. simpl in LN. lia.
           ++ rewrite stream_cons in SR. simpl fst in SR. rewrite Z.eqb_refl in SR. eapply sorted_app_r; eauto.
           ++ rewrite stream_cons in SO. simpl fst in SO. destruct (Z.eqb_spec t (1 - t)); [lia|]. auto.
           ++ inversion HI'; auto.
        -- assert (tn = (1 - t)%Z) as -> by lia. simpl app in EX, SR, SO, HI'. rewrite stream_cons in SR, SO. simpl fst in SR, SO. rewrite Z.eqb_refl in SO. destruct (Z.eqb_spec (1 - t) t); [lia|]. simpl snd in SO.
           reshape ((pre ++ map Val O) ++ G' ++ map Val R ++ map Val N ++ map Val (cells rem ++ cells trail ++ Tl) ++ post). { unfold cells. simpl. solve_app. }
           eapply smart_merge_wp; eauto; [eapply sorted_app_l; eauto|eapply sorted_app_l; eauto|lens|].
           intros O' W w G2 HS HG2. apply wp_ret. split; [|lens].
           assert (length G2 = length G') as LG. { clear - HG' HG2. destruct mode; simpl in *; intros; [now subst|lia|lia]. }
           pose proof (smart_length _ _ _ _ _ _ _ _ HS) as LS.
           assert (length W <= lblock) as LW. { destruct (smart_suffix _ _ _ _ _ _ HS) as [(_ & l0 & E)|(_ & l0 & E)]; apply (f_equal (@length A)) in E; rewrite app_length in E; lia. }
           exists (done ++ [((1 - t)%Z, N)]), rem, (O ++ O'), W, G2. cj; auto; try (lens; fail).
           ++ rewrite ED. solve_app.
           ++ destruct (smart_stream _ _ _ _ _ _ _ _ HS) as [->| ->]; lia.
           ++ solve_app.
           ++ rewrite EX, <- app_assoc. f_equal. rewrite !stream_cons. simpl fst. rewrite Z.eqb_refl. destruct (Z.eqb_spec (1 - t) t); [lia|]. simpl snd. simpl app.
              rewrite (smart_merge_eq comp proj t R N O' W w HS Ht). f_equal. destruct (Z.eqb_spec w t) as [->|Hw]; auto.
              destruct (smart_stream _ _ _ _ _ _ _ _ HS) as [->| ->]; [congruence|]. replace (1 - (1 - t))%Z with t by lia. unfold mergez.
              destruct Ht as [->| ->]; reflexivity.
           ++ destruct (smart_suffix _ _ _ _ _ _ HS) as [(-> & l0 & ->)|(-> & l0 & ->)].
              ** rewrite <- app_assoc in SR. eapply sorted_app_r; eauto.
              ** rewrite <- app_assoc in SO. eapply sorted_app_r; eauto.
           ++ destruct (smart_suffix _ _ _ _ _ _ HS) as [(-> & l0 & ->)|(-> & l0 & ->)].
              ** eapply sorted_app_r; eauto.
              ** replace (1 - (1 - t))%Z with t by lia. eapply sorted_app_r; eauto.
           ++ inversion HI'; auto.
Qed.
End Buffers.
