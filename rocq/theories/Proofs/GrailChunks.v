(** grail_sort: a pass that merges the sorted chunks pairwise. *)
From Coq Require Import List Arith Lia Permutation Bool ZArith.
From Verif Require Import Spec.Order Lang.Mem Proofs.Wp Proofs.OrderLib Model.Rotate Proofs.Rotate Proofs.RotateGcd Proofs.Moves Model.Search Proofs.Search Model.Insertion Proofs.MergeSort Model.Grail Proofs.GrailMerge Proofs.GrailSmart Proofs.GrailBuffers Proofs.GrailBlocks Proofs.GrailCombine.
Import ListNotations.
Local Arguments nth_error : simpl never.
Local Arguments upd : simpl never.
Local Arguments loop : simpl never.
Local Arguments gapok : simpl never.
Local Arguments Z.sub : simpl never.
Local Arguments Nat.mul : simpl never.

Section Chunks.
Context {A T : Type} (comp : T -> T -> bool) (proj : A -> T) (triv : bool).
Notation lt := (by_proj comp proj).
Implicit Types (pre post G : mem A).
Hypothesis HW : strict_weak_order lt.
Local Notation ssort := (ssort lt).

(** The chunks of [n] elements are sorted. *)
Inductive sb (n : nat) : list A -> list A -> Prop :=
| sb_last : forall l, length l <= n -> sb n l (ssort l)
| sb_full : forall l o c, length l = n -> sb n o c -> sb n (l ++ o) (ssort l ++ c).

Lemma sb_length : forall n o c, sb n o c -> length c = length o.
Proof. induction 1. { apply ssort_length. } rewrite !app_length, ssort_length. lia. Qed.
Lemma sb_perm : forall n o c, sb n o c -> Permutation o c.
Proof. induction 1. { apply ssort_perm. } apply Permutation_app; auto. apply ssort_perm. Qed.
Lemma sb_nil : forall n, sb n [] [].
Proof. intros n. apply (sb_last n []). simpl. lia. Qed.
Lemma sb_short : forall n o c, 0 < n -> sb n o c -> length o <= n -> c = ssort o.
Proof.
  intros n o c Hn H HL. inversion H as [l H1|l o' c' H1 H2]; subst; auto. rewrite app_length in HL.
  assert (o' = []) as -> by (destruct o'; auto; simpl in HL; lia). pose proof (sb_length _ _ _ H2) as E. destruct c'; [|discriminate]. now rewrite !app_nil_r.
Qed.
Lemma sb_first : forall n o c, sb n o c -> n <= length o -> exists l o' c', o = l ++ o' /\ c = ssort l ++ c' /\ length l = n /\ sb n o' c'.
Proof.
  intros n o c H HL. inversion H as [l H1|l o' c' H1 H2]; subst.
  - exists o, [], []. rewrite !app_nil_r. cj; auto; [lia|apply sb_nil].
  - exists l, o', c'. auto.
Qed.
Lemma sb_all : forall n o c, 0 < n -> sb n o c -> length o <= n -> c = ssort o.
Proof. exact sb_short. Qed.

Lemma shift_back_wp : forall ext buf G xs pre post arr len lblock (Q : unit -> mem A -> Prop), gapok ext buf G -> G <> [] -> arr = length pre + length G -> len = length xs -> lblock = length G ->
  (forall G', gapok ext buf G' -> Q tt (pre ++ G' ++ map Val xs ++ post)) ->
  wp (shift_back ext arr len lblock) Q (pre ++ map Val xs ++ G ++ post).
Proof.
  intros ext buf G xs pre post arr len lblock Q HG HN -> -> -> HQ. unfold shift_back.
  apply wp_loop' with
    (I := fun n m => exists a b G', xs = a ++ b /\ n = length a /\ gapok ext buf G' /\ m = pre ++ map Val a ++ G' ++ map Val b ++ post)
    (mu := fun n => n).
  - exists xs, [], G. rewrite app_nil_r. cj; auto.
  - lia.
  - intros n m (a & b & G' & -> & -> & HG' & ->). destruct (list_eq_nil_dec a) as [->|HNa].
    + simpl. apply wp_ret. now apply HQ.
    + destruct (exists_last HNa) as (l & x & ->). rewrite app_length. simpl length. destruct (Nat.eqb_spec (length l + 1) 0); [lia|].
      assert (length G' = length G) as EG by (rewrite (gapok_len _ _ _ HG), (gapok_len _ _ _ HG'); auto).
      destruct (@exists_last _ G') as (g & c & ->). { intros ->. destruct G; [congruence|discriminate EG]. }
      rewrite app_length in EG. simpl in EG.
      apply wp_bind. reshape ((pre ++ map Val l) ++ Val x :: g ++ c :: map Val b ++ post).
      eapply transfer_right_wp with (g := g); [|lens|lens|]. { eapply gapok_perm; [exact HG'|]. symmetry. apply Permutation_cons_append. }
      intros c' Hc'. apply wp_ret. split; [|lia]. exists l, (x :: b), (c' :: g). cj; auto; [solve_app|lia|solve_app].
Qed.

Lemma gapm_len : forall mode buf lblock G G', gapm mode buf lblock G -> gapm mode buf lblock G' -> length G = length G'.
Proof. intros [] buf lblock G G'; simpl; intros; [now subst|lia|lia]. Qed.

Lemma combine_blocks_wp : forall mode lblock na LL K buf orig cur X kp mid p1 p2 keys arr len xbuf (Q : unit -> mem A -> Prop),
  (match mode with NoBuffer => buf = [] | _ => length buf = lblock end) -> (mode = Extra -> length X = lblock /\ Forall live X) ->
  0 < lblock -> LL = na * lblock -> 0 < na -> sb LL orig cur -> LL < length orig -> distinct comp proj K ->
  (2 * LL <= length orig -> 2 * na <= length K) -> (LL < length orig mod (2 * LL) -> length orig mod (2 * LL) / lblock + 1 <= length K) ->
  keys = length kp -> arr = length kp + length K + length mid + length buf -> len = length orig -> xbuf = arr + length orig + length p1 ->
  (forall K' buf' out X', Permutation K K' -> Permutation buf buf' -> sb (2 * LL) orig out -> length X' = length X -> (mode <> Extra -> X' = X) -> (mode = Extra -> buf' = buf /\ Forall live X') ->
     Q tt (kp ++ map Val K' ++ mid ++ map Val buf' ++ map Val out ++ p1 ++ X' ++ p2)) ->
  wp (combine_blocks comp proj triv mode keys arr len LL lblock xbuf) Q (kp ++ map Val K ++ mid ++ map Val buf ++ map Val cur ++ p1 ++ X ++ p2).
Proof.
  intros mode lblock na LL K buf orig cur X kp mid p1 p2 keys arr len xbuf Q HM HX HB ELL HNA HSB HLL HD HK1 HK2 -> -> -> -> HQ. unfold combine_blocks.
  set (n := length orig) in *.
  assert (0 < LL) as HLL0 by nia.
  pose proof (Nat.div_mod n (2 * LL) ltac:(lia)) as DN. pose proof (Nat.mod_upper_bound n (2 * LL) ltac:(lia)) as MN.
  set (M := n / (2 * LL)) in *. set (lr := n mod (2 * LL)) in *.
  assert (exists len' lrest', (if lr <=? LL then (n - lr, 0) else (n, lr)) = (len', lrest') /\ (lr <= LL /\ len' = n - lr /\ lrest' = 0 \/ LL < lr /\ len' = n /\ lrest' = lr)) as (len' & lrest' & -> & HLR).
  { destruct (Nat.leb_spec lr LL); do 2 eexists; split; eauto. }
  assert (length cur = n) as LC by (apply sb_length in HSB; auto).
  (* what remains after the buffer has been set up *)
  assert (forall X1 G (Q1 : unit -> mem A -> Prop), gapm mode buf lblock G ->
    (forall K' G' done left, Permutation K K' -> gapm mode buf lblock G' -> length done = len' -> sb (2 * LL) orig (done ++ left) ->
       Q1 tt (kp ++ map Val K' ++ mid ++ map Val done ++ G' ++ map Val left ++ p1 ++ X1 ++ p2)) ->
    wp (loop (S (S M)) (fun b =>
      if b <=? M then
        if (b =? M) && (lrest' =? 0) then ret (inr tt) else
        combine_two comp proj triv mode (length kp) (length kp + length K + length mid + length buf + b * 2 * LL) (if b =? M then lrest' else 2 * LL) LL lblock (b =? M) ;;
        ret (inl (S b))
      else ret (inr tt)) 0) Q1 (kp ++ map Val K ++ mid ++ G ++ map Val cur ++ p1 ++ X1 ++ p2)) as HLOOP.
  { intros X1 G Q1 HG HQ1.
    assert (length G = length buf) as LG. { destruct mode; simpl in HG; [subst; auto|lia|lia]. }
    apply wp_loop' with
      (I := fun b m => exists K' G' done o c, Permutation K K' /\ gapm mode buf lblock G' /\ sb LL o c /\
         m = kp ++ map Val K' ++ mid ++ map Val done ++ G' ++ map Val c ++ p1 ++ X1 ++ p2 /\ (forall out, sb (2 * LL) o out -> sb (2 * LL) orig (done ++ out)) /\
         length done + length o = n /\ (b <= M /\ length done = b * (2 * LL) \/ b = S M /\ o = [] /\ len' = n))
      (mu := fun b => S M - b).
    - exists K, G, [], orig, cur. cj; auto. left. split; [lia|]. reflexivity.
    - lia.
    - intros b m (K' & G' & done & o & c & HPK & HG' & HSO & -> & HOUT & HLN & HCASE).
      assert (length G' = length buf) as LG' by (rewrite <- LG; apply (gapm_len _ _ _ _ _ HG' HG)).
      assert (length K' = length K) as LK' by (symmetry; now apply Permutation_length).
      assert (distinct comp proj K') as HD' by (eapply distinct_perm; eauto).
      destruct HCASE as [[Hb HLD]|(-> & -> & EL)].
      + destruct (Nat.leb_spec b M); [|lia]. destruct (Nat.eqb_spec b M) as [->|Hne].
        * assert (length o = lr) as Lo by nia.
          destruct HLR as [(H1 & H2 & ->)|(H1 & H2 & ->)].
          -- simpl. apply wp_ret. apply HQ1; auto. { nia. } apply HOUT. rewrite (sb_short LL o c); auto; [|lia]. apply sb_last. lia.
          -- destruct (Nat.eqb_spec lr 0); [lia|]. simpl andb. cbv iota.
             destruct (sb_first LL o c HSO) as (l1 & l2 & c2 & -> & -> & L1 & HS2); [lia|]. rewrite app_length in Lo, HLN.
             rewrite (sb_short LL l2 c2 HLL0 HS2) by lia.
             assert (exists ks kr, K' = ks ++ kr /\ length ks = lr / lblock + 1) as (ks & kr & -> & Lks).
             { exists (firstn (lr / lblock + 1) K'), (skipn (lr / lblock + 1) K'). rewrite firstn_skipn, firstn_length. split; auto. specialize (HK2 H1). lia. }
             apply wp_bind.
             reshape (kp ++ map Val ks ++ (map Val kr ++ mid ++ map Val done) ++ G' ++ map Val (ssort l1 ++ ssort l2) ++ p1 ++ X1 ++ p2).
             rewrite app_length in LK'.
             eapply combine_two_wp with (na := na); eauto; try (rewrite ?ssort_length; lia); try discriminate; try (now apply ssort_sorted).
             ++ eapply distinct_app_l; eauto.
             ++ rewrite !app_length, !map_length. nia.
             ++ intros ks' G2 HPk HG2. apply wp_ret. split; [|lia]. exists (ks' ++ kr), G2, (done ++ merge lt (ssort l1) (ssort l2)), [], []. cj; auto.
                ** rewrite HPK. now apply Permutation_app_tail.
                ** apply sb_nil.
                ** solve_app.
                ** intros out Hout. rewrite <- app_assoc. apply HOUT. rewrite merge_ssort by auto.
                   assert (out = []) as -> by (apply sb_length in Hout; destruct out; auto; discriminate). rewrite app_nil_r. apply sb_last. rewrite app_length. lia.
                ** rewrite app_length, merge_length, !ssort_length. simpl length. lia.
        * rewrite andb_false_l. cbv iota.
          assert (2 * LL <= length o) as Lo by nia.
          destruct (sb_first LL o c HSO) as (l1 & o1 & c1 & -> & -> & L1 & HS1); [lia|]. rewrite app_length in Lo, HLN.
          destruct (sb_first LL o1 c1 HS1) as (l2 & o2 & c2 & -> & -> & L2 & HS2); [lia|]. rewrite app_length in Lo, HLN.
          assert (2 * LL / lblock = 2 * na) as E2. { rewrite ELL, Nat.mul_assoc, Nat.div_mul by lia. auto. }
          assert (exists ks kr, K' = ks ++ kr /\ length ks = 2 * LL / lblock + 0) as (ks & kr & -> & Lks).
          { exists (firstn (2 * na) K'), (skipn (2 * na) K'). rewrite firstn_skipn, firstn_length, E2. split; auto. nia. }
          apply wp_bind.
          reshape (kp ++ map Val ks ++ (map Val kr ++ mid ++ map Val done) ++ G' ++ map Val (ssort l1 ++ ssort l2) ++ (map Val c2 ++ p1 ++ X1 ++ p2)).
          rewrite app_length in LK'.
          eapply combine_two_wp with (na := na); eauto; try (rewrite ?ssort_length; lia); try (now apply ssort_sorted).
          -- intros _. exists (na - 1). rewrite ssort_length. nia.
          -- eapply distinct_app_l; eauto.
          -- rewrite !app_length, !map_length. nia.
          -- intros ks' G2 HPk HG2. apply wp_ret. split; [|lia]. exists (ks' ++ kr), G2, (done ++ merge lt (ssort l1) (ssort l2)), o2, c2. cj; auto.
             ++ rewrite HPK. now apply Permutation_app_tail.
             ++ solve_app.
             ++ intros out Hout. rewrite <- app_assoc. apply HOUT. rewrite merge_ssort by auto. rewrite app_assoc. apply sb_full; auto. rewrite app_length. lia.
             ++ rewrite app_length, merge_length, !ssort_length. lia.
             ++ left. split; [lia|]. rewrite app_length, merge_length, !ssort_length. lia.
      + destruct (Nat.leb_spec (S M) M); [lia|]. apply wp_ret. apply HQ1; auto. { simpl in HLN. lia. } apply HOUT.
        assert (c = []) as -> by (apply sb_length in HSO; destruct c; auto; discriminate). apply sb_nil. }
  assert (0 < len') as HL0 by nia.
  destruct mode; simpl in HM.
  - subst buf. apply wp_bind. apply wp_ret. apply wp_bind. apply HLOOP; [reflexivity|]. intros K' G' done left HP -> HDn HS. apply wp_ret.
    specialize (HQ K' [] (done ++ left) X HP ltac:(auto) HS eq_refl ltac:(auto) ltac:(discriminate)).
    replace (kp ++ map Val K' ++ mid ++ map Val done ++ [] ++ map Val left ++ p1 ++ X ++ p2) with (kp ++ map Val K' ++ mid ++ map Val [] ++ map Val (done ++ left) ++ p1 ++ X ++ p2) by solve_app. exact HQ.
  - apply wp_bind. apply wp_ret. apply wp_bind. apply HLOOP. { split; [red; auto|]. now rewrite map_length. }
    intros K' G' done left HP [HG' LG'] HDn HS.
    reshape ((kp ++ map Val K' ++ mid) ++ map Val done ++ G' ++ map Val left ++ p1 ++ X ++ p2).
    eapply shift_back_wp; eauto. { intros ->. simpl in LG'. lia. } { rewrite !app_length, !map_length, <- (Permutation_length HP). lia. }
    intros G2 HG2. destruct (gapok_vals _ _ HG2) as (b2 & -> & HPb).
    replace ((kp ++ map Val K' ++ mid) ++ map Val b2 ++ map Val done ++ map Val left ++ p1 ++ X ++ p2) with (kp ++ map Val K' ++ mid ++ map Val b2 ++ map Val (done ++ left) ++ p1 ++ X ++ p2) by solve_app.
    apply HQ; auto. discriminate.
  - destruct (HX eq_refl) as [LX HXL]. apply wp_bind. apply wp_bind.
    reshape ((kp ++ map Val K ++ mid) ++ map Val buf ++ (map Val cur ++ p1) ++ X ++ p2).
    apply move_range_to_right_wp; auto; try congruence; try (rewrite ?app_length, ?map_length; lia). apply wp_ret.
    apply wp_bind.
    reshape (kp ++ map Val K ++ mid ++ repeat Moved (length buf) ++ map Val cur ++ p1 ++ map Val buf ++ p2).
    apply HLOOP. { split; [split|]; rewrite ?repeat_length; auto. apply Forall_forall. intros c Hc. apply repeat_spec in Hc. subst c. discriminate. }
    intros K' G' done left HP [HG' LG'] HDn HS. apply wp_bind.
    reshape ((kp ++ map Val K' ++ mid) ++ map Val done ++ G' ++ map Val left ++ p1 ++ map Val buf ++ p2).
    eapply shift_back_wp; eauto. { intros ->. simpl in LG'. lia. } { rewrite !app_length, !map_length, <- (Permutation_length HP). lia. }
    intros G2 [HG2 LG2]. apply wp_bind.
    assert (length (done ++ left) = n) as LDL by (apply sb_length in HS; auto).
    reshape ((kp ++ map Val K' ++ mid) ++ G2 ++ (map Val done ++ map Val left ++ p1) ++ map Val buf ++ p2).
    rewrite app_length in LDL. pose proof (Permutation_length HP) as LKP.
    apply move_range_to_left_wp; auto; try (rewrite ?app_length, ?map_length; lia). apply wp_ret.
    replace ((kp ++ map Val K' ++ mid) ++ map Val buf ++ (map Val done ++ map Val left ++ p1) ++ repeat Moved (length buf) ++ p2) with
      (kp ++ map Val K' ++ mid ++ map Val buf ++ map Val (done ++ left) ++ p1 ++ repeat Moved (length buf) ++ p2) by solve_app.
    apply HQ; auto.
    + rewrite repeat_length. congruence.
    + congruence.
    + intros _. split; auto. apply Forall_forall. intros c Hc. apply repeat_spec in Hc. subst c. discriminate.
Qed.
End Chunks.
