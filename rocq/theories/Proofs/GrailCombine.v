(** grail_sort: two sorted sequences of blocks are merged. *)
From Coq Require Import List Arith Lia Permutation Bool ZArith.
From Verif Require Import Spec.Order Lang.Mem Proofs.Wp Proofs.OrderLib Model.Rotate Proofs.Rotate Proofs.RotateGcd Model.Search Proofs.Search Model.Insertion Proofs.MergeSort Model.Grail Proofs.GrailMerge Proofs.GrailSmart Proofs.GrailBuffers Proofs.GrailBlocks.
Import ListNotations.
Local Arguments nth_error : simpl never.
Local Arguments upd : simpl never.
Local Arguments loop : simpl never.
Local Arguments gapok : simpl never.
Local Arguments Z.sub : simpl never.
Local Arguments Nat.mul : simpl never.

Lemma filter_all : forall {X} (f : X -> bool) l, (forall x, In x l -> f x = true) -> filter f l = l.
Proof. intros X f. induction l as [|x l IH]; intros H; auto. simpl. rewrite H by now left. f_equal. apply IH. intros; apply H; now right. Qed.
Lemma filter_none : forall {X} (f : X -> bool) l, (forall x, In x l -> f x = false) -> filter f l = [].
Proof. intros X f. induction l as [|x l IH]; intros H; auto. simpl. rewrite H by now left. apply IH. intros; apply H; now right. Qed.
Lemma sorted_last_max_gen : forall {X} (lt : X -> X -> bool), strict_weak_order lt -> forall a x z, sorted lt (a ++ [x]) -> In z (a ++ [x]) -> le lt z x.
Proof.
  intros X lt HW a x z H Hz. apply sorted_app in H as (_ & _ & H). apply in_app_iff in Hz as [Hz|[->|[]]]; [|now apply le_refl]. apply H; auto. now left.
Qed.

Section Combine.
Context {A T : Type} (comp : T -> T -> bool) (proj : A -> T) (triv : bool).
Notation lt := (by_proj comp proj).
Implicit Types (pre post G : mem A).
Hypothesis HW : strict_weak_order lt.
Local Notation kblk := (A * (A * list A))%type.
Implicit Types (kb : list kblk).
Local Notation plt := (plt comp proj).

(** No two elements are equivalent. *)
Inductive distinct : list A -> Prop :=
| distinct_nil : distinct []
| distinct_cons : forall x l, (forall y, In y l -> lt x y = true \/ lt y x = true) -> distinct l -> distinct (x :: l).
Lemma distinct_perm : forall l l', Permutation l l' -> distinct l -> distinct l'.
Proof.
  intros l l' HP. induction HP; intros HD; auto.
  - inversion HD; subst. constructor; auto. intros y Hy. apply H1. eapply Permutation_in; [symmetry; exact HP|auto].
  - inversion HD as [|y' l' H1 H2]; subst. inversion H2 as [|x' l' H3 H4]; subst. constructor; [|constructor; auto].
    + intros z [<-|Hz]; auto. destruct (H1 x); auto. now left.
    + intros z Hz. apply H1. now right.
Qed.
Lemma distinct_app_l : forall l1 l2, distinct (l1 ++ l2) -> distinct l1.
Proof. induction l1 as [|x l1 IH]; intros l2 H; [constructor|]. inversion H; subst. constructor; eauto. intros; apply H2. apply in_app_iff; auto. Qed.
Lemma distinct_strict : forall l, distinct l -> sorted lt l -> strict lt l.
Proof.
  intros l H. induction H as [|x l H1 H2 IH]; intros HS; [constructor|]. apply sorted_cons in HS as [H3 H4]. constructor; auto.
  intros y Hy. destruct (H1 y Hy) as [E|E]; auto. specialize (H3 y Hy). red in H3. congruence.
Qed.
Lemma strict_distinct : forall l, strict lt l -> distinct l.
Proof. intros l H. induction H; constructor; auto. Qed.

Lemma count_after_wp : forall kb kp mid post Tl lblock arr1 (Q : nat -> mem A -> Prop), (forall p, In p kb -> length (block p) = lblock) ->
  arr1 = length kp + length kb + length mid -> sorted plt kb ->
  (forall r t, kb = r ++ t -> (Tl = [] -> t = []) -> (forall ht, hd_error Tl = Some ht -> (forall p, In p r -> lt ht (hdk p) = false) /\ (forall p, In p t -> lt ht (hdk p) = true)) ->
     Q (length t) (kmem kb kp mid (map Val Tl ++ post))) ->
  wp (count_after comp proj arr1 lblock (length kb) (length Tl)) Q (kmem kb kp mid (map Val Tl ++ post)).
Proof.
  intros kb kp mid post Tl lblock arr1 Q HL -> HS HQ. unfold count_after. destruct Tl as [|ht Tl].
  { simpl length. rewrite Nat.eqb_refl. apply wp_ret. apply (HQ kb []); auto. { now rewrite app_nil_r. } intros ht E. discriminate. }
  simpl length. change (S (length Tl) =? 0) with false. cbv iota.
  apply wp_loop' with
    (I := fun n m => m = kmem kb kp mid (map Val (ht :: Tl) ++ post) /\ exists r t, kb = r ++ t /\ n = length t /\ (forall p, In p t -> lt ht (hdk p) = true))
    (mu := fun n => length kb - n).
  - split; auto. exists kb, []. cj; auto. { now rewrite app_nil_r. }
  - lia.
  - intros n m (-> & r & t & E & -> & HT). assert (length kb = length r + length t) as LK by (rewrite E, app_length; auto).
    assert (forall p, r = [] -> In p r -> lt ht (hdk p) = false) as HN by (intros p -> []).
    destruct (list_eq_nil_dec r) as [Er|NR].
    + destruct (Nat.ltb_spec (length t) (length kb)) as [E1|E1]; [subst r; simpl in LK; lia|]. apply wp_ret. apply (HQ r t); auto; [discriminate|]. intros ht' E'. inversion E'; subst. auto.
    + destruct (exists_last NR) as (r' & q & ->). rewrite app_length in LK. simpl in LK.
      destruct (Nat.ltb_spec (length t) (length kb)) as [E1|E1]; [|lia].
      assert (nth_error kb (length kb - length t - 1) = Some q) as Hq. { rewrite E, <- app_assoc. apply nth_at. rewrite ?app_length; simpl length; rewrite ?app_length; simpl length; lia. }
      apply wp_bind. eapply wp_compare_at.
      * instantiate (1 := ht). unfold kmem. replace (kp ++ map Val (map fst kb) ++ mid ++ map Val (bcells kb) ++ map Val (ht :: Tl) ++ post) with
          ((kp ++ map Val (map fst kb) ++ mid ++ map Val (bcells kb)) ++ Val ht :: map Val Tl ++ post) by solve_app.
        apply nth_at. rewrite !app_length, !map_length, (bcells_length kb lblock); auto. lia.
      * eapply read_head; eauto.
      * rewrite compare_neg. destruct (lt ht (hdk q)) eqn:EL.
        -- apply wp_ret. split; [|lia]. split; auto. exists r', (q :: t). cj; auto; [rewrite E; solve_app|]. intros p [<-|Hp]; auto.
        -- apply wp_ret. apply (HQ (r' ++ [q]) t); auto; [discriminate|]. intros ht' E'. inversion E'; subst ht'. split; auto.
           intros p Hp. rewrite E in HS. apply sorted_app in HS as (HS & _ & _). 
           assert (le plt p q) as HPQ. { apply (sorted_last_max_gen plt (plt_swo comp proj HW) r'); auto. } 
           red in HPQ. unfold GrailBlocks.plt in HPQ. destruct (lt (hdk q) (hdk p)) eqn:E2; [discriminate|]. exact (le_trans lt HW _ _ _ E2 EL).
Qed.

Section Tags.
Variable kmid : A.
Definition tag (p : kblk) : Z := if lt (fst p) kmid then 0%Z else 1%Z.
Definition tblk (p : kblk) : Z * list A := (tag p, block p).

Lemma tag_01 : forall p, tag p = 0%Z \/ tag p = 1%Z.
Proof. intros p. unfold tag. destruct (lt (fst p) kmid); auto. Qed.
Lemma stream_tblk : forall z kb, stream z (map tblk kb) = bcells (filter (fun p => (tag p =? z)%Z) kb).
Proof.
  intros z. induction kb as [|p kb IH]; auto. simpl map. rewrite stream_cons, IH. simpl. destruct (tag p =? z)%Z; auto.
Qed.
Lemma cells_tblk : forall kb, cells (map tblk kb) = bcells kb.
Proof. induction kb as [|p kb IH]; auto. unfold cells in *. simpl map. simpl concat. rewrite IH. reflexivity. Qed.
Lemma ordered_tblk : forall p q, plt q p = false -> ordered comp proj (tblk p) (tblk q).
Proof.
  intros p q HP. unfold ordered. simpl. unfold tag. intros HT x y Ex Ey. inversion Ex; subst x. inversion Ey; subst y. unfold before. unfold GrailBlocks.plt, hdk in HP.
  destruct (lt (fst p) kmid) eqn:E1; destruct (lt (fst q) kmid) eqn:E2; try congruence; simpl (_ =? _)%Z; cbv iota.
  - destruct (lt (fst (snd q)) (fst (snd p))); auto. 
  - destruct (lt (fst (snd q)) (fst (snd p))); [discriminate|]. destruct (lt (fst (snd p)) (fst (snd q))); auto. rewrite (lt_le_trans lt HW _ _ _ E2 E1) in HP. discriminate.
Qed.
Lemma inter_app : forall l1 l2, inter comp proj l1 -> inter comp proj l2 -> (forall b1 b2, In b1 l1 -> In b2 l2 -> ordered comp proj b1 b2) -> inter comp proj (l1 ++ l2).
Proof.
  intros l1 l2 H1 H2 H. induction H1 as [|b bs H3 H4 IH]; auto. simpl. constructor.
  - intros b' Hb'. apply in_app_iff in Hb' as [Hb'|Hb']; auto. apply H; auto. now left.
  - apply IH. intros; apply H; auto. now right.
Qed.
Lemma inter_tblk : forall kb, sorted plt kb -> inter comp proj (map tblk kb).
Proof.
  induction kb as [|p kb IH]; intros HS; simpl; [constructor|]. apply sorted_cons in HS as [H1 H2]. constructor; auto.
  intros b' Hb'. apply in_map_iff in Hb' as (q & <- & Hq). apply ordered_tblk. now apply H1.
Qed.
End Tags.

Lemma strict_kb : forall kb, strict lt (map fst kb) -> sorted lt (bcells kb) -> strict plt kb.
Proof.
  induction kb as [|p kb IH]; intros HS HB; [constructor|]. simpl in HS. inversion HS as [|k l H1 H2]; subst.
  rewrite bcells_cons in HB. apply sorted_app in HB as (_ & HB & HB2). constructor; auto. intros q Hq. unfold GrailBlocks.plt.
  destruct (lt (hdk p) (hdk q)); auto. assert (lt (hdk q) (hdk p) = false) as ->.
  { apply HB2. { now left. } unfold bcells. apply in_concat. exists (block q). split; [now apply in_map|now left]. }
  apply H1. now apply in_map.
Qed.

(** Pairs of keys and blocks. *)
Lemma make_kb : forall lblock ks l, 0 < lblock -> length l = length ks * lblock -> exists kb, map fst kb = ks /\ bcells kb = l /\ forall p, In p kb -> length (block p) = lblock.
Proof.
  intros lblock ks l HB. revert l. induction ks as [|k ks IH]; intros l HL.
  - simpl in HL. destruct l; [|discriminate]. exists []. cj; auto. intros p [].
  - simpl length in HL. destruct (IH (skipn lblock l)) as (kb & E1 & E2 & E3). { rewrite skipn_length. lia. }
    destruct (firstn lblock l) as [|x b] eqn:EF. { apply (f_equal (@length A)) in EF. rewrite firstn_length in EF. simpl in EF. lia. }
    exists ((k, (x, b)) :: kb). cj.
    + simpl. now rewrite E1.
    + rewrite bcells_cons, E2. unfold block. simpl fst. simpl snd. rewrite <- EF. apply firstn_skipn.
    + intros p [<-|Hp]; auto. unfold block. simpl fst. simpl snd. rewrite <- EF, firstn_length. lia.
Qed.

Lemma combine_two_wp : forall mode buf lblock G ks na As Bs kp mid post keys arr1 irr LL len1 (Q : unit -> mem A -> Prop),
  gapm mode buf lblock G -> 0 < lblock -> length As = na * lblock -> (irr = false -> exists nb, length Bs = S nb * lblock) ->
  LL = length As -> len1 = length As + length Bs -> 0 < length Bs ->
  length ks = len1 / lblock + (if irr then 1 else 0) -> distinct ks -> sorted lt As -> sorted lt Bs ->
  keys = length kp -> arr1 = length kp + length ks + length mid + length G ->
  (forall ks' G', Permutation ks ks' -> gapm mode buf lblock G' -> Q tt (kp ++ map Val ks' ++ mid ++ map Val (merge lt As Bs) ++ G' ++ post)) ->
  wp (combine_two comp proj triv mode keys arr1 len1 LL lblock irr) Q (kp ++ map Val ks ++ mid ++ G ++ map Val (As ++ Bs) ++ post).
Proof.
  intros mode buf lblock G ks na As Bs kp mid post keys arr1 irr LL len1 Q HG HB HA HIR -> E1 HBs HK HD SA SB -> -> HQ. unfold combine_two.
  apply wp_bind. eapply insertion_sort_stab; [auto|lia|]. intros ks1 [HP1 HS1]. specialize (HS1 HW).
  assert (sorted lt ks1) as SK1 by (rewrite HS1; now apply ssort_sorted).
  assert (strict lt ks1) as STK. { apply distinct_strict; auto. eapply distinct_perm; eauto. }
  assert (length ks1 = len1 / lblock + (if irr then 1 else 0)) as LK1 by (rewrite <- HK; symmetry; now apply Permutation_length).
  clear HS1.
  assert (length As / lblock = na) as Ena by (rewrite HA; apply Nat.div_mul; lia).
  pose proof (Nat.div_mod (length Bs) lblock ltac:(lia)) as DB. pose proof (Nat.mod_upper_bound (length Bs) lblock ltac:(lia)) as MB.
  set (nb := length Bs / lblock) in *. set (llast := length Bs mod lblock) in *.
  assert (len1 / lblock = na + nb) as END. { rewrite E1, HA, Nat.add_comm, Nat.div_add by lia. fold nb. lia. }
  assert (len1 mod lblock = llast) as EMD. { rewrite E1, HA, Nat.add_comm, Nat.mod_add by lia. reflexivity. }
  set (Bf := firstn (nb * lblock) Bs). set (Tl := skipn (nb * lblock) Bs).
  assert (Bs = Bf ++ Tl) as EBs by (symmetry; apply firstn_skipn).
  assert (length Bf = nb * lblock) as LBf by (unfold Bf; rewrite firstn_length; nia).
  assert (length Tl = llast) as LTl by (unfold Tl; rewrite skipn_length; nia).
  clearbody Bf Tl.
  assert (irr = false -> llast = 0 /\ 1 <= nb) as HIR'. { intros Ei. destruct (HIR Ei) as (n & En). unfold llast, nb. rewrite En, Nat.mod_mul, Nat.div_mul by lia. lia. }
  clearbody nb llast.
  assert (exists kA kB kx, ks1 = kA ++ kB ++ kx /\ length kA = na /\ length kB = nb) as (kA & kB & kx & EK & LkA & LkB).
  { exists (firstn na ks1), (firstn nb (skipn na ks1)), (skipn nb (skipn na ks1)). rewrite firstn_skipn, firstn_skipn. cj; auto; rewrite !firstn_length, ?skipn_length; lia. }
  destruct (make_kb lblock kA As) as (kbA & EA1 & EA2 & EA3); [auto|now rewrite LkA|].
  destruct (make_kb lblock kB Bf) as (kbB & EB1 & EB2 & EB3); [auto|now rewrite LkB|].
  assert (length kbA = na) as LkbA by (rewrite <- LkA, <- EA1, map_length; auto).
  assert (length kbB = nb) as LkbB by (rewrite <- LkB, <- EB1, map_length; auto).
  assert (forall p, In p (kbA ++ kbB) -> length (block p) = lblock) as HLB. { intros p Hp. apply in_app_iff in Hp as [Hp|Hp]; auto. }
  assert (exists kmid kr, kB ++ kx = kmid :: kr) as (kmid & kr & EKM).
  { assert (length (kB ++ kx) <> 0) as HN. { rewrite EK, app_length in LK1. destruct irr; [lia|]. destruct HIR'; auto. lia. } destruct (kB ++ kx) as [|k l]; [simpl in HN; lia|eauto]. }
  set (tg := tag kmid).
  assert (forall p, In p kbA -> tg p = 0%Z) as TGA. { intros p Hp. unfold tg, tag. rewrite EK in STK. apply strict_app in STK as (_ & _ & STK). rewrite STK; auto. { rewrite <- EA1. now apply in_map. } rewrite EKM. now left. }
  assert (forall p, In p kbB -> tg p = 1%Z) as TGB.
  { intros p Hp. unfold tg, tag. rewrite EK in SK1. apply sorted_app_r in SK1. assert (le lt kmid (fst p)) as ->; auto. rewrite EKM in SK1. eapply sorted_head_min; [exact HW|exact SK1|].
    rewrite <- EKM. apply in_app_iff. left. rewrite <- EB1. now apply in_map. }
  apply wp_bind.
  reshape (kmem (kbA ++ kbB) kp (map Val kx ++ mid ++ G) (map Val Tl ++ post)).
  { unfold kmem. rewrite bcells_app, (map_app fst), EA1, EB1, EA2, EB2, EK, EBs. solve_app. }
  rewrite END, Ena. replace (na + nb) with (length (kbA ++ kbB)) by (rewrite app_length; lia).
  assert (length ks = length kA + length kB + length kx) as LKS. { rewrite (Permutation_length HP1), EK, !app_length. lia. }
  eapply sort_blocks_wp; eauto. { rewrite !app_length, !map_length. lia. }
  intros kb mk HPkb SKB HMID.
  assert (forall p, In p kb -> length (block p) = lblock) as HLB'. { intros p Hp. apply HLB. eapply Permutation_in; [symmetry; exact HPkb|auto]. }
  assert (length kb = na + nb) as Lkb by (rewrite <- (Permutation_length HPkb), app_length; lia).
  assert ((if irr then len1 mod lblock else 0) = length Tl) as ->. { rewrite EMD, LTl. destruct irr; auto. destruct HIR'; auto. }
  apply wp_bind. replace (length (kbA ++ kbB)) with (length kb) by (rewrite app_length; lia).
  eapply count_after_wp; eauto. { rewrite !app_length, !map_length. lia. }
  intros r t EKB HT0 HT1.
  assert (filter (fun p => (tg p =? 0)%Z) kb = kbA) as FA.
  { symmetry. apply (strict_unique plt).
    - apply strict_kb. { rewrite EA1. rewrite EK in STK. now apply strict_app in STK. } now rewrite EA2.
    - etransitivity; [|apply (Permutation_filter _ _ _ HPkb)]. rewrite filter_app.
      rewrite (filter_all (fun p => (tg p =? 0)%Z) kbA), (filter_none (fun p => (tg p =? 0)%Z) kbB), app_nil_r; auto.
      + intros p Hp. now rewrite TGB.
      + intros p Hp. now rewrite TGA.
    - now apply sorted_filter. }
  assert (filter (fun p => (tg p =? 1)%Z) kb = kbB) as FB.
  { symmetry. apply (strict_unique plt).
    - apply strict_kb. { rewrite EB1. rewrite EK in STK. apply strict_app in STK as (_ & STK & _). now apply strict_app in STK. } rewrite EB2. rewrite EBs in SB. eapply sorted_app_l; eauto.
    - etransitivity; [|apply (Permutation_filter _ _ _ HPkb)]. rewrite filter_app.
      rewrite (filter_none (fun p => (tg p =? 1)%Z) kbA), (filter_all (fun p => (tg p =? 1)%Z) kbB); auto.
      + intros p Hp. now rewrite TGB.
      + intros p Hp. now rewrite TGA.
    - now apply sorted_filter. }
  assert (forall p, In p t -> tg p = 0%Z) as TT.
  { intros p Hp. destruct (tag_01 kmid p) as [E|E]; auto. exfalso. destruct Tl as [|ht Tl]. { rewrite HT0 in Hp; auto. }
    destruct (HT1 ht eq_refl) as [_ HT2]. specialize (HT2 p Hp).
    assert (In p kbB) as HpB. { rewrite <- FB. apply filter_In. split. { rewrite EKB. apply in_app_iff; auto. } unfold tg. rewrite E. reflexivity. }
    rewrite EBs in SB. apply sorted_app in SB as (_ & _ & SB). specialize (SB (hdk p) ht). rewrite SB in HT2; [discriminate| |now left].
    rewrite <- EB2. unfold bcells. apply in_concat. exists (block p). split; [now apply in_map|now left]. }
  assert (stream 0 (map (tblk kmid) r ++ (1%Z, Tl) :: map (tblk kmid) t) = As) as ES0.
  { rewrite stream_app, stream_cons. simpl fst. change (1 =? 0)%Z with false. cbv iota. simpl app. rewrite <- stream_app, <- map_app, <- EKB, stream_tblk. fold tg. now rewrite FA. }
  assert (stream 1 (map (tblk kmid) r ++ (1%Z, Tl) :: map (tblk kmid) t) = Bs) as ES1.
  { rewrite stream_app, stream_cons. simpl fst. change (1 =? 1)%Z with true. cbv iota. simpl snd. rewrite !stream_tblk. fold tg.
    rewrite (filter_none (fun p => (tg p =? 1)%Z) t). 2:{ intros p Hp. now rewrite TT. } simpl bcells. unfold bcells at 2. simpl. rewrite app_nil_r. rewrite EBs. f_equal. rewrite <- EB2, <- FB, EKB, filter_app.
    rewrite (filter_none (fun p => (tg p =? 1)%Z) t). 2:{ intros p Hp. now rewrite TT. } now rewrite app_nil_r. }
  replace (length kb - length t) with (length (map (tblk kmid) r)) by (rewrite map_length, EKB, app_length; lia).
  replace (length t) with (length (map (tblk kmid) t)) by now rewrite map_length.
  reshape ((kp ++ map Val (map fst kb) ++ map Val kx ++ mid) ++ G ++ map Val (cells (map (tblk kmid) r) ++ cells (map (tblk kmid) t) ++ Tl) ++ post).
  { unfold kmem. rewrite !cells_tblk, EKB, bcells_app. solve_app. }
  eapply merge_buffers_left_wp; eauto.
  - lia.
  - intros ET. rewrite (HT0 ET) in *. split; auto. rewrite app_nil_r in EKB. subst r. intros E. apply (f_equal (@length _)) in E. rewrite map_length in E. simpl in E.
    subst Tl. simpl in LTl. nia.
  - intros b Hb. rewrite <- map_app, <- EKB in Hb. apply in_map_iff in Hb as (p & <- & Hp). exact (HLB' p Hp).
  - intros b Hb. apply in_map_iff in Hb as (p & <- & Hp). simpl. auto.
  - intros b Hb. apply in_map_iff in Hb as (p & <- & Hp). apply tag_01.
  - rewrite EKB in SKB. apply sorted_app in SKB as (SR & ST & SRT). apply inter_app; [now apply inter_tblk|constructor; [|now apply inter_tblk]|].
    + intros b Hb. apply in_map_iff in Hb as (p & <- & Hp). unfold ordered. simpl. intros _ x y Ex Ey. inversion Ey; subst y. unfold before. change (1 =? 0)%Z with false. cbv iota. apply (HT1 x Ex). auto.
    + intros b1 b2 H1 H2. apply in_map_iff in H1 as (p & <- & Hp). destruct H2 as [<-|H2].
      * unfold ordered. simpl. intros HNE x y Ex Ey. inversion Ex; subst x. destruct (tag_01 kmid p) as [E|E]; [|congruence]. rewrite E. unfold before. simpl (_ =? _)%Z. cbv iota. apply negb_true_iff. apply (HT1 y Ey). auto.
      * apply in_map_iff in H2 as (q & <- & Hq). apply ordered_tblk. apply SRT; auto.
  - now rewrite ES0.
  - now rewrite ES1.
  - intros i b Hi. rewrite nth_error_map in Hi. destruct (nth_error r i) as [p|] eqn:Er; [|discriminate]. simpl in Hi. inversion Hi; subst b.
    assert (nth_error kb i = Some p) as Hkb. { rewrite EKB. now apply nth_app_l. }
    exists (fst p), kmid. cj.
    + apply nth_error_split in Hkb as (l1 & l2 & -> & <-). rewrite map_app. simpl map. replace (kp ++ map Val (map fst l1 ++ fst p :: map fst l2) ++ map Val kx ++ mid) with ((kp ++ map Val (map fst l1)) ++ Val (fst p) :: map Val (map fst l2) ++ map Val kx ++ mid) by solve_app.
      apply nth_at. rewrite app_length, !map_length. auto.
    + destruct HMID as [HM1 HM2]. destruct kbB as [|q kbB].
      * simpl in EB1. subst kB. simpl in EKM. subst kx. rewrite HM2 by (rewrite app_nil_r; lia). rewrite app_nil_r in *.
        replace (kp ++ map Val (map fst kb) ++ map Val (kmid :: kr) ++ mid) with ((kp ++ map Val (map fst kb)) ++ Val kmid :: map Val kr ++ mid) by solve_app.
        apply nth_at. rewrite app_length, !map_length. simpl in LkbB. lia.
      * destruct (HM1 q) as (q' & Hq' & Eq'). { apply nth_at. lia. }
        simpl in EB1. subst kB. simpl in EKM. inversion EKM; subst kmid. rewrite <- Eq'.
        apply nth_error_split in Hq' as (l1 & l2 & -> & <-). rewrite map_app. simpl map. replace (kp ++ map Val (map fst l1 ++ fst q' :: map fst l2) ++ map Val kx ++ mid) with ((kp ++ map Val (map fst l1)) ++ Val (fst q') :: map Val (map fst l2) ++ map Val kx ++ mid) by solve_app.
        apply nth_at. rewrite app_length, !map_length. auto.
    + reflexivity.
  - rewrite !app_length, !map_length. lia.
  - intros G' HG'. rewrite ES0, ES1.
    replace ((kp ++ map Val (map fst kb) ++ map Val kx ++ mid) ++ map Val (merge lt As Bs) ++ G' ++ post) with (kp ++ map Val (map fst kb ++ kx) ++ mid ++ map Val (merge lt As Bs) ++ G' ++ post) by solve_app.
    apply HQ; auto. rewrite HP1, EK. rewrite <- (Permutation_map fst HPkb), map_app, EA1, EB1, <- app_assoc. reflexivity.
Qed.
End Combine.
