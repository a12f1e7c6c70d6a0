(** wiki_sort: merging two ranges by blocks. *)
From Coq Require Import List Arith Lia Permutation Bool.
From Verif Require Import Spec.Order Lang.Mem Spec.Sorts Proofs.Wp Proofs.OrderLib Proofs.MergeLib Model.Rotate Proofs.RotateGcd Proofs.Search Model.Search Proofs.HalfMerge Proofs.Regions
  Model.Heap Proofs.Heap Model.Insertion Proofs.Insertion Proofs.MergeSort Proofs.BufMerge Proofs.GrailMerge Proofs.GrailBlocks Model.Merge Model.Spin Proofs.SpinMerge Proofs.SpinHalf Model.Wiki Proofs.WikiFind Proofs.WikiMerge.
Import ListNotations.
Local Arguments nth_error : simpl never.
Local Arguments upd : simpl never.
Local Arguments Nat.leb : simpl never.
Local Arguments Nat.ltb : simpl never.
Local Arguments Nat.eqb : simpl never.
Local Arguments Nat.mul : simpl never.
Local Arguments Nat.modulo : simpl never.

Lemma lives_part : forall A (P : nat -> Prop) (m m' : mem A) b K k, lives m b K -> only P m m' -> lives m' b k -> k <= K -> (forall i, within (b + k) (K - k) i -> ~ P i) -> lives m' b K.
Proof.
  intros A P m m' b K k L O L' HK HP. replace K with (k + (K - k)) by lia. apply lives_app; auto. eapply lives_only; [exact O|exact HP|]. eapply lives_sub; [exact L| |]; lia.
Qed.
Lemma seg_lives_eq : forall A (m : mem A) f g n xs, seg m f xs -> f = g -> n = length xs -> lives m g n.
Proof. intros; subst; now apply seg_lives. Qed.

(** ** Blocks: a head and a tail *)
Definition cat {A} (bl : list (A * list A)) : list A := flat_map (fun b => fst b :: snd b) bl.
Definition sized {A} (bs : nat) (bl : list (A * list A)) : Prop := forall b, In b bl -> S (length (snd b)) = bs.
Lemma cat_app : forall A (x y : list (A * list A)), cat (x ++ y) = cat x ++ cat y.
Proof. intros. apply flat_map_app. Qed.
Lemma cat_cons : forall A (b : A * list A) y, cat (b :: y) = fst b :: snd b ++ cat y.
Proof. reflexivity. Qed.
Lemma cat_nil : forall A, cat (@nil (A * list A)) = [].
Proof. reflexivity. Qed.
Local Arguments cat : simpl never.
Lemma cat_len : forall A bs (bl : list (A * list A)), sized bs bl -> length (cat bl) = length bl * bs.
Proof.
  intros A bs. induction bl as [|b bl IH]; intros HS; [reflexivity|]. rewrite cat_cons. simpl. rewrite app_length, IH by (intros c Hc; apply HS; now right).
  pose proof (HS b (or_introl eq_refl)). lia.
Qed.
Lemma sized_app : forall A bs (x y : list (A * list A)), sized bs (x ++ y) <-> sized bs x /\ sized bs y.
Proof. intros A bs x y. unfold sized. split; [intros H; split; intros b Hb; apply H, in_or_app; auto|]. intros [H1 H2] b Hb. apply in_app_or in Hb as [Hb|Hb]; auto. Qed.
Lemma sized_cons : forall A bs b (y : list (A * list A)), sized bs (b :: y) <-> S (length (snd b)) = bs /\ sized bs y.
Proof. intros A bs b y. unfold sized. split; [intros H; split; [|intros c Hc]; apply H; simpl; auto|]. intros [H1 H2] c [<-|Hc]; auto. Qed.
Lemma sized_perm : forall A bs (x y : list (A * list A)), Permutation x y -> sized bs x -> sized bs y.
Proof. intros A bs x y HP H b Hb. apply H. eapply Permutation_in; [symmetry; exact HP|auto]. Qed.

Section Pair.
Context {A T : Type} (comp : T -> T -> bool) (proj : A -> T) (triv : bool).
Local Notation lt := (by_proj comp proj).
Implicit Types (m : mem A).
Hypothesis HC : strict_weak_order comp.
Let HW : strict_weak_order lt := swo_by_proj _ _ comp proj HC.
Variables (f N b2 cb K bs : nat) (u2 : list A).
Local Notation n2 := (length u2).
Hypothesis AF2 : apart f N b2 n2.
Hypothesis AFC : apart f N cb K.
Hypothesis A2C : apart b2 n2 cb K.
Hypothesis HBS : 0 < bs.
Hypothesis HB2 : 0 < n2 -> bs <= n2.

(** The second buffer and the cache. *)
Definition free m : Prop := lives m cb K /\ exists v, Permutation u2 v /\ seg m b2 v.
Definition spare m (i : nat) : Prop := within b2 n2 i \/ within cb K i.
(** The A block [xs], whose place is at [p]: in the cache, in the second buffer or in place. *)
Definition parked m (xs : list A) (p : nat) : Prop := lives m cb K /\
  if (0 <? K) && (length xs <=? K) then seg m cb xs /\ lives m p (length xs) /\ exists v, Permutation u2 v /\ seg m b2 v
  else if 0 <? n2 then exists g v, length g = length xs /\ Permutation u2 (g ++ v) /\ seg m b2 (xs ++ v) /\ seg m p g
  else seg m p xs /\ exists v, Permutation u2 v /\ seg m b2 v.

Lemma merge_last_wp : forall X Y p lastA last m (Q : unit -> mem A -> Prop), sorted lt X -> sorted lt Y -> parked m X p -> seg m (p + length X) Y ->
  f <= p -> p + length X + length Y <= f + N -> lastA = (p, p + length X) -> last = p + length X + length Y ->
  (forall m', free m' -> seg m' p (ssort lt (X ++ Y)) -> only (fun i => within p (length X + length Y) i \/ within b2 n2 i \/ within cb K i) m m' -> Q tt m') ->
  wp (merge_last comp proj triv cb K (b2, b2 + n2) lastA last) Q m.
Proof.
  intros X Y p lastA last m Q OX OY HP SY F1 F2 -> -> HQ. unfold merge_last, len, start, end_. simpl fst. simpl snd.
  replace (p + length X - p) with (length X) by lia. replace (b2 + n2 - b2) with n2 by lia. replace (p + length X + length Y - (p + length X)) with (length Y) by lia.
  destruct HP as [LC HP]. destruct ((0 <? K) && (length X <=? K)) eqn:EM.
  - apply andb_true_iff in EM as [E1 E2]. apply Nat.leb_le in E2. destruct HP as (SX & LP & v & PV & SV). assert (length v = n2) as HV by now rewrite (Permutation_length PV).
    eapply (half_merge_region comp proj HC X Y m cb _ (p + length X) _ p); auto; try lia; [win|]. intros m' S' L' O'. apply HQ; auto.
    + split; [|exists v; split; auto; keep O' SV]. eapply lives_part; [exact LC|exact O'|exact L'|auto|win].
    + eapply only_weaken; [exact O'|win].
  - destruct (Nat.ltb_spec 0 n2) as [E2|E2].
    + destruct HP as (g & v & HG & PV & SX & SG). apply seg_app in SX as [SX SV]. assert (length g + length v = n2) as HV by (rewrite <- app_length; now rewrite (Permutation_length PV)).
      eapply (merge_internal_region comp proj HC X Y g m p _ _ _ b2); auto; try lia; [apply seg_app; split; [exact SG|rewrite HG; exact SY]|win|]. intros g' m' PG S1 S2 O'. apply HQ; auto.
      * split; [keep O' LC|]. exists (g' ++ v). split; [rewrite <- PG; auto|]. apply seg_app. split; auto. rewrite <- (Permutation_length PG), HG. keep O' SV.
      * eapply only_weaken; [exact O'|win].
    + destruct HP as (SX & v & PV & SV). assert (length v = n2) as HV by now rewrite (Permutation_length PV).
      eapply (merge_in_place_region comp proj HC triv X Y); auto; [apply seg_app; split; [exact SX|exact SY]|]. intros m' S' O'. apply HQ; auto.
      * split; [keep O' LC|]. exists v. split; auto. keep O' SV.
      * eapply only_weaken; [exact O'|win].
Qed.

(** The block with the smallest tag. *)
Lemma min_block_wp : forall bl m a blockA (Q : nat -> mem A -> Prop), bl <> [] -> sized bs bl -> seg m a (cat bl) -> blockA = (a, a + length (cat bl)) ->
  (forall x b y, bl = x ++ b :: y -> (forall c, In c bl -> lt (fst c) (fst b) = false) -> Q (a + length (cat x)) m) ->
  wp (min_block comp proj blockA bs) Q m.
Proof.
  intros bl m a blockA Q HN HS SM -> HQ. unfold min_block, len, start, end_. simpl fst. simpl snd. replace (a + length (cat bl) - a) with (length (cat bl)) by lia.
  destruct bl as [|b0 bl]; [congruence|].
  apply wp_loop' with
    (I := fun '(mi, fi) m1 => m1 = m /\ exists x b y z, b0 :: bl = (x ++ b :: y) ++ z /\ mi = a + length (cat x) /\ fi = a + length (cat (x ++ b :: y)) /\
       (forall c, In c (x ++ b :: y) -> lt (fst c) (fst b) = false))
    (mu := fun '(_, fi) => a + length (cat (b0 :: bl)) - fi).
  - split; auto. exists [], b0, [], bl. simpl app. cj; auto.
    + simpl app. rewrite cat_cons, cat_nil, app_nil_r. simpl length. apply sized_cons in HS. lia.
    + intros c [<-|[]]. apply (swo_irrefl lt HW).
  - lia.
  - intros [mi fi] m1 (-> & x & b & y & z & E & -> & -> & HM). rewrite E in *.
    assert (length (cat ((x ++ b :: y) ++ z)) = length (cat (x ++ b :: y)) + length (cat z)) as EL by now rewrite cat_app, app_length.
    match goal with |- context [?i <? ?j] => destruct (Nat.ltb_spec i j) as [H|H] end.
    + destruct z as [|c z]; [rewrite cat_nil in EL; simpl in EL; lia|]. pose proof HS as HS'. apply sized_app in HS as [HS1 HS2]. apply sized_cons in HS2 as [HS2 HS3].
      pose proof SM as SM'. rewrite (cat_app _ (x ++ b :: y)) in SM. apply seg_app in SM as [SM1 SM2]. rewrite cat_cons in SM2. apply seg_cons in SM2 as [Vc _].
      rewrite cat_app in SM1. apply seg_app in SM1 as [_ SM1]. rewrite cat_cons in SM1. apply seg_cons in SM1 as [Vb _].
      apply wp_bind. eapply comp_at_wp; [exact Vc|exact Vb|]. apply wp_ret. assert (length (cat [c]) = bs) as HL by (rewrite cat_cons, cat_nil, app_nil_r; simpl; lia). split.
      * split; auto. destruct (lt (fst c) (fst b)) eqn:EC.
        -- exists (x ++ b :: y), c, [], z. rewrite <- !app_assoc. simpl app. cj; auto.
           ++ rewrite app_comm_cons, app_assoc, (cat_app _ (x ++ b :: y)), app_length. lia.
           ++ intros e He. rewrite app_comm_cons, app_assoc in He. apply in_app_or in He as [He|[<-|[]]]; [|apply (swo_irrefl lt HW)].
              destruct (lt (fst e) (fst c)) eqn:EE; auto. rewrite <- (HM e He). symmetry. eapply (swo_trans lt HW); eauto.
        -- exists x, b, (y ++ [c]), z. rewrite <- !app_assoc. simpl app. cj; auto.
           ++ rewrite <- !app_assoc. auto.
           ++ rewrite app_comm_cons, app_assoc, (cat_app _ (x ++ b :: y)), app_length. lia.
           ++ intros e He. rewrite app_comm_cons, app_assoc in He. apply in_app_or in He as [He|[<-|[]]]; auto.
      * lia.
    + destruct z as [|c z]. 2:{ rewrite (cat_cons _ c) in EL. simpl in EL. lia. }
      apply wp_ret. eapply HQ; [rewrite app_nil_r; reflexivity|]. rewrite app_nil_r. auto.
Qed.

(** Putting the block [X] that follows [L] before it, parked. *)
Lemma park_wp : forall L X q a m (Q : unit -> mem A -> Prop), length X = bs -> length L <= bs -> free m -> seg m q (L ++ X) -> a = q + length L ->
  f <= q -> q + length L + bs <= f + N ->
  (forall m', parked m' X q -> seg m' (q + bs) L -> only (fun i => within q (length L + bs) i \/ within b2 n2 i \/ within cb K i) m m' -> Q tt m') ->
  wp (if (0 <? n2) || ((0 <? K) && (bs <=? K)) then
     if bs <=? K then
       let* _ := move_range a (a + bs) cb in
       let* _ := move_range q (q + length L) (a + (bs - length L)) in ret tt
     else
       let* _ := swap_ranges a (a + bs) b2 in
       let* _ := swap_ranges q (q + length L) (a + (bs - length L)) in ret tt
   else let* _ := rotate RandomAccess triv q a (a + bs) in ret tt) Q m.
Proof.
  intros L X q a m Q HX HL (LC & v & PV & SV) SM -> F1 F2 HQ. unfold parked in HQ. rewrite HX in HQ.
  assert (length v = n2) as HV by now rewrite (Permutation_length PV).
  pose proof SM as SM0. apply seg_app in SM as [SL SX]. destruct (Nat.leb_spec bs K) as [EK|EK].
  - assert ((0 <? K) = true) as E0 by (apply Nat.ltb_lt; lia). rewrite E0 in *. simpl andb in *. rewrite orb_true_r.
    apply wp_bind. eapply (move_range_region X); [exact SX|lia|eapply lives_sub; [exact LC| |]; lia|win|]. intros m1 S1 L1 O1.
    apply wp_bind. eapply (move_range_region L); [keep O1 SL|lia|eapply lives_sub; [exact L1| |]; lia|win|]. intros m2 S2 L2 O2. assert (seg m2 cb X) as SX2 by keep O2 S1. apply wp_ret. apply HQ.
    + split.
      * eapply (lives_part _ (fun i => within q (length L + bs) i \/ within cb bs i) m m2 cb K bs LC); [|eapply seg_lives_eq; [exact SX2|lia|lia]|auto|win].
        eapply only_trans; [eapply only_weaken; [exact O1|win]|eapply only_weaken; [exact O2|win]].
      * cj; [exact SX2| |exists v; split; auto; assert (seg m1 b2 v) as SV1 by keep O1 SV; keep O2 SV1].
        replace bs with (length L + (bs - length L)) by lia. apply lives_app; auto.
        eapply lives_only; [exact O2|win|]. eapply lives_sub; [exact L1| |]; lia.
    + eapply seg_eq; [exact S2|lia].
    + eapply only_trans; [eapply only_weaken; [exact O1|win]|eapply only_weaken; [exact O2|win]].
  - rewrite andb_false_r in *. destruct (Nat.ltb_spec 0 n2) as [E2|E2]; simpl orb; cbv iota.
    + assert (bs <= n2) as HB by auto. 
      assert (length (firstn bs v) = bs) as HG by (rewrite firstn_length; lia). assert (length (skipn bs v) = n2 - bs) as HVW by (rewrite skipn_length; lia).
      rewrite <- (firstn_skipn bs v) in PV, SV. set (g := firstn bs v) in *. set (w := skipn bs v) in *.
      apply seg_app in SV as [SG SW].
      apply wp_bind. eapply (swap_ranges_region X g); [exact SX|exact SG|lia|lia|win|]. intros m1 S1 S2 O1.
      rewrite <- (firstn_skipn (bs - length L) g) in S1, PV. set (g1 := firstn (bs - length L) g) in *. set (g2 := skipn (bs - length L) g) in *.
      assert (length g1 = bs - length L) as H1 by (unfold g1; rewrite firstn_length; lia). assert (length g2 = length L) as H2 by (unfold g2; rewrite skipn_length; lia).
      apply seg_app in S1 as [S1 S1']. apply wp_bind. eapply (swap_ranges_region L g2); [keep O1 SL|eapply seg_eq; [exact S1'|lia]|lia|lia|win|]. intros m2 S3 S4 O2. apply wp_ret. apply HQ.
      * split; [assert (lives m1 cb K) as LC1 by keep O1 LC; keep O2 LC1|]. exists (g2 ++ g1), w. cj.
        -- rewrite app_length. lia.
        -- rewrite PV. rewrite (Permutation_app_comm g1 g2). auto.
        -- apply seg_app. split; [keep O2 S2|]. rewrite HX. rewrite HG in SW. assert (seg m1 (b2 + bs) w) as SW1 by keep O1 SW. keep O2 SW1.
        -- apply seg_app. split; auto. rewrite H2. keep O2 S1.
      * eapply seg_eq; [exact S4|lia].
      * eapply only_trans; [eapply only_weaken; [exact O1|win]|eapply only_weaken; [exact O2|win]].
    + apply wp_bind. eapply (rotate_region triv L X); [exact SM0|lia|lia|]. intros m1 S1 O1. apply seg_app in S1 as [S1 S2]. apply wp_ret. apply HQ.
      * split; [keep O1 LC|]. split; auto. exists v. split; auto. keep O1 SV.
      * rewrite HX in S2. exact S2.
      * eapply only_weaken; [exact O1|win].
Qed.

Lemma parked_only : forall (P : nat -> Prop) m m' X p, only P m m' -> (forall i, P i -> ~ within p (length X) i /\ ~ within b2 n2 i /\ ~ within cb K i) -> parked m X p -> parked m' X p.
Proof.
  intros P m m' X p O HP [LC H]. split; [eapply lives_only; [exact O| |exact LC]; intros i Hi HPi; destruct (HP i HPi) as (? & ? & ?); tauto|].
  assert ((exists v, Permutation u2 v /\ seg m b2 v) -> exists v, Permutation u2 v /\ seg m' b2 v) as H2.
  { intros (v & PV & SV). exists v. split; auto. eapply seg_only; [exact O| |exact SV]. intros i Hi HPi. rewrite <- (Permutation_length PV) in Hi. destruct (HP i HPi) as (? & ? & ?); tauto. }
  destruct ((0 <? K) && (length X <=? K)) eqn:EM.
  - apply andb_true_iff in EM as [_ EM]. apply Nat.leb_le in EM. destruct H as (S1 & L1 & H). cj; auto.
    + eapply seg_only; [exact O| |exact S1]. intros i Hi HPi. destruct (HP i HPi) as (? & ? & ?); unfold within in *; lia.
    + eapply lives_only; [exact O| |exact L1]. intros i Hi HPi. destruct (HP i HPi) as (? & ? & ?); tauto.
  - destruct (0 <? n2).
    + destruct H as (g & v & HG & PV & S1 & S2). exists g, v. cj; auto.
      * eapply seg_only; [exact O| |exact S1]. intros i Hi HPi. destruct (HP i HPi) as (? & ? & ?). apply Permutation_length in PV. rewrite app_length in *. unfold within in *; lia.
      * eapply seg_only; [exact O| |exact S2]. intros i Hi HPi. rewrite HG in Hi. destruct (HP i HPi) as (? & ? & ?); tauto.
    + destruct H as (S1 & H). split; auto. eapply seg_only; [exact O| |exact S1]. intros i Hi HPi. destruct (HP i HPi) as (? & ? & ?); tauto.
Qed.

Lemma drop_block_wp : forall X Y0 L b rest bl p idx h lastA lastB blockA m (Q : range * range -> mem A -> Prop),
  sorted lt X -> sorted lt (Y0 ++ L) -> length L <= bs -> Permutation bl (b :: rest) -> (forall c, In c rest -> lt (fst b) (fst c) = true) -> sized bs bl ->
  parked m X p -> seg m (p + length X) (Y0 ++ L ++ cat bl) -> nth_error m idx = Some (Val h) -> ~ within f N idx -> ~ within b2 n2 idx -> ~ within cb K idx ->
  f <= p -> p + length X + length Y0 + length L + length (cat bl) <= f + N ->
  lastA = (p, p + length X) -> lastB = (p + length X + length Y0, p + length X + length Y0 + length L) ->
  blockA = (p + length X + length Y0 + length L, p + length X + length Y0 + length L + length (cat bl)) ->
  (forall L1 L2 bl' q m', L = L1 ++ L2 -> (forall y, In y L1 -> lt y h = true) -> (forall y, In y L2 -> lt y h = false) -> Permutation bl' rest ->
     q = p + length X + length Y0 + length L1 -> seg m' p (ssort lt (X ++ Y0 ++ L1)) -> parked m' (h :: snd b) q -> seg m' (q + bs) (L2 ++ cat bl') ->
     nth_error m' idx = Some (Val (fst b)) ->
     only (fun i => within p (length X + length Y0 + length L + length (cat bl)) i \/ i = idx \/ within b2 n2 i \/ within cb K i) m m' ->
     Q ((q, q + bs), (q + bs, q + bs + length L2)) m') ->
  wp (drop_block comp proj triv cb K bs (b2, b2 + n2) idx lastA lastB blockA) Q m.
Proof.
  intros X Y0 L b rest bl p idx h lastA lastB blockA m Q OX OY HL HP HR HS PK SM VI I1 I2 I3 F1 F2 -> -> -> HQ.
  unfold drop_block, len, start, end_. simpl fst. simpl snd. replace (b2 + n2 - b2) with n2 by lia.
  destruct (split_lower comp proj HW L h) as (L1 & L2 & -> & HU & HV); [apply (sorted_app_r comp proj) in OY; auto|].
  rewrite app_length in *. set (q := p + length X + length Y0 + length L1).
  pose proof SM as SM0. apply seg_app in SM as [SY SM]. apply seg_app in SM as [SL SB].
  apply wp_bind. eapply wp_get; [exact VI|].
  apply wp_bind. eapply (lower_bound_region comp proj L1 L2); [exact SL|rewrite app_length; lia|exact HU|exact HV|]. fold q.
  replace (p + length X + length Y0 + (length L1 + length L2) - q) with (length L2) by (unfold q; lia).
  replace (p + length X + length Y0 + (length L1 + length L2)) with (q + length L2) in * by (unfold q; lia). rewrite app_length in SB.
  replace (p + length X + length Y0 + (length L1 + length L2)) with (q + length L2) in * by (unfold q; lia).
  apply wp_bind. eapply (min_block_wp bl); [intros ->; apply Permutation_nil in HP; discriminate|exact HS|exact SB|auto|]. intros x c y EB HM.
  assert (c = b) as ->.
  { assert (In c (b :: rest)) as [->|Hc]; auto. { eapply Permutation_in; [exact HP|]. rewrite EB. apply in_elt. }
    assert (lt (fst b) (fst c) = false) as E by (apply HM, (Permutation_in b (Permutation_sym HP)); now left). rewrite (HR c Hc) in E. discriminate. }
  assert (Permutation (x ++ y) rest) as HPR. { apply Permutation_cons_inv with (a := b). rewrite <- HP, EB. apply Permutation_middle. }
  set (bl' := match x with [] => y | c :: x' => x' ++ c :: y end).
  assert (Permutation bl' rest) as HPB. { rewrite <- HPR. unfold bl'. destruct x as [|c x']; auto. simpl. symmetry. apply Permutation_middle. }
  assert (length (cat bl') + bs = length (cat bl)) as HLB.
  { rewrite !(cat_len _ bs); auto. { apply Permutation_length in HPB. apply Permutation_length in HP. simpl in HP. nia. }
    eapply sized_perm; [symmetry; exact HPB|]. eapply sized_perm in HS; [|exact HP]. now apply sized_cons in HS. }
  assert (S (length (snd b)) = bs) as Hb. { apply HS. rewrite EB. apply in_elt. }
  (* the block to the front *)
  apply wp_bind. apply wp_mono with (Q := fun _ m1 => seg m1 (q + length L2) (cat (b :: bl')) /\ only (within (q + length L2) (length (cat bl))) m m1).
  { subst bl. destruct x as [|c x]; simpl in bl'.
    - eapply (swap_ranges_self (fst b :: snd b)); [rewrite app_nil_l, cat_cons, app_comm_cons in SB; apply seg_app in SB as [SB _]; exact SB|simpl; lia|rewrite cat_nil; simpl; lia|].
      split; auto. apply only_refl.
    - apply sized_app in HS as [HS1 HS2]. apply sized_cons in HS1 as [Hc HS1]. apply sized_cons in HS2 as [_ HS2].
      simpl app in *. rewrite cat_cons, app_comm_cons, cat_app, cat_cons in SB. apply seg_app in SB as [T1 T2]. apply seg_app in T2 as [T2 T3]. rewrite app_comm_cons in T3. apply seg_app in T3 as [T3 T4].
      assert (length (cat (c :: x)) = bs + length (cat x)) as E1 by (rewrite cat_cons; simpl; rewrite app_length; lia).
      assert (length (cat (c :: x ++ b :: y)) = bs + length (cat x) + bs + length (cat y)) as E2 by (rewrite cat_cons, cat_app, cat_cons; simpl; rewrite !app_length; simpl; rewrite app_length; lia).
      simpl length in *. eapply (swap_ranges_region (fst c :: snd c) (fst b :: snd b)); [exact T1|eapply seg_eq; [exact T3|lia]|simpl; lia|simpl; lia|win|]. simpl length. intros m1 V1 V2 O1.
      split; [|eapply only_weaken; [exact O1|win]]. unfold bl'. rewrite cat_cons, cat_app, (cat_cons _ c y), !app_comm_cons. apply seg_app. split; auto. simpl length. apply seg_app. split; [keep O1 T2|].
      apply seg_app. split; [have V2|]. simpl length. keep O1 T4. }
  intros _ m1 [SB1 O1].
  (* its head *)
  rewrite cat_cons in SB1. apply seg_cons in SB1 as [VH SB1]. apply seg_app in SB1 as [SB1 SB2].
  apply wp_bind. eapply swap_region; [exact VH|keep O1 VI|]. intros m2 V1 V2 O2.
  assert (seg m2 (q + length L2) (h :: snd b)) as SX. { apply seg_cons. split; auto. keep O2 SB1. }
  assert (seg m2 (q + length L2 + bs) (cat bl')) as SB3 by keep O2 SB2.
  assert (parked m2 X p) as PK2. { eapply parked_only; [exact O2| |eapply parked_only; [exact O1| |exact PK]]; win. }
  assert (seg m2 (p + length X) (Y0 ++ L1)) as SY2.
  { apply seg_app in SL as [SL1 SL2]. assert (seg m (p + length X) (Y0 ++ L1)) as S0 by (apply seg_app; auto). assert (seg m1 (p + length X) (Y0 ++ L1)) as S01 by (assert (length (Y0 ++ L1) = length Y0 + length L1) as E by apply app_length; keep O1 S0).
    assert (length (Y0 ++ L1) = length Y0 + length L1) as E by apply app_length. keep O2 S01. }
  assert (seg m2 q L2) as SL2. { apply seg_app in SL as [_ S0]. assert (seg m1 q L2) as S01 by keep O1 S0. keep O2 S01. }
  (* the merge of the previous block *)
  apply wp_bind. eapply (merge_last_wp X (Y0 ++ L1)); [exact OX| |exact PK2|exact SY2|exact F1|rewrite app_length; lia|auto|rewrite app_length; lia|].
  { rewrite app_assoc in OY. now apply (sorted_app_l comp proj) in OY. }
  intros m3 FR S3 O3. rewrite app_length in O3.
  (* parking it *)
  apply wp_bind. eapply (park_wp L2 (h :: snd b) q); [simpl; lia|lia|exact FR| |lia|lia|lia|].
  { apply seg_app. split; [keep O3 SL2|keep O3 SX]. }
  intros m4 PK4 S4 O4. apply wp_ret.
  replace (q + length L2 - length L2) with q by lia. replace (q + length L2 + bs - length L2) with (q + bs) by lia.
  apply HQ with (L1 := L1) (bl' := bl'); auto.
  - assert (length (ssort lt (X ++ Y0 ++ L1)) = length X + length Y0 + length L1) as E by (rewrite (ssort_length lt), !app_length; lia). keep O4 S3.
  - apply seg_app. split; auto. assert (seg m3 (q + length L2 + bs) (cat bl')) as S5 by keep O3 SB3. keep O4 S5.
  - assert (nth_error m3 idx = Some (Val (fst b))) as S5 by keep O3 V2. keep O4 S5.
  - eapply only_trans; [eapply only_weaken; [exact O1|win]|]. eapply only_trans; [eapply only_weaken; [exact O2|win]|].
    eapply only_trans; [eapply only_weaken; [exact O3|win]|]. eapply only_weaken; [exact O4|win].
Qed.

(** ** Rolling the blocks *)
Variables (b1 : nat) (u1 : list A).
Local Notation n1 := (length u1).
Hypothesis AF1 : apart f N b1 n1.
Hypothesis A12 : apart b1 n1 b2 n2.
Hypothesis A1C : apart b1 n1 cb K.
Hypothesis HST : strict lt u1.

(** A tag, the head of a block and its tail. *)
Definition tag (r : A * A * list A) : A := fst (fst r).
Definition hed (r : A * A * list A) : A := snd (fst r).
Definition tgd (r : A * A * list A) : A * list A := (tag r, snd r).
Definition org (r : A * A * list A) : A * list A := (hed r, snd r).
Lemma tgd_sized : forall R, sized bs (map org R) -> sized bs (map tgd R).
Proof. intros R H b Hb. apply in_map_iff in Hb as (r & <- & Hr). apply (H (org r)). now apply in_map. Qed.
Lemma cut_blocks : forall k l u, length l = k * bs -> k <= length u -> exists R ut, l = cat (map org R) /\ u = map tag R ++ ut /\ sized bs (map org R) /\ length R = k.
Proof.
  induction k as [|k IH]; intros l u HL HU.
  - exists [], u. destruct l; [|simpl in HL; lia]. cj; auto. intros b [].
  - destruct u as [|a u]; [simpl in HU; lia|]. destruct l as [|x l]; [simpl in HL; nia|]. simpl in HL, HU.
    destruct (IH (skipn (bs - 1) l) u) as (R & ut & E1 & -> & HS & HR); [rewrite skipn_length; nia|lia|].
    exists ((a, x, firstn (bs - 1) l) :: R), ut. simpl map. rewrite cat_cons. simpl. cj; auto.
    + now rewrite <- E1, firstn_skipn.
    + apply sized_cons. split; auto. simpl. rewrite firstn_length. nia.
Qed.
Lemma tags_strict : forall ub r R ut, u1 = ub ++ map tag (r :: R) ++ ut -> forall c, In c (map tgd R) -> lt (tag r) (fst c) = true.
Proof.
  intros ub r R ut E c Hc. apply in_map_iff in Hc as (s & <- & Hs). rewrite E in HST. clear E. induction ub as [|a ub IH]; simpl in HST.
  - inversion HST as [|x l H1 H2]; subst. apply H1. apply in_or_app. left. now apply (in_map tag).
  - inversion HST; subst; auto.
Qed.

Lemma tag_blocks_wp : forall R ut a e m (Q : unit -> mem A -> Prop), sized bs (map org R) -> u1 = map tag R ++ ut -> seg m b1 u1 -> seg m a (cat (map org R)) ->
  f <= a -> a + length (cat (map org R)) <= f + N -> e = a + length (cat (map org R)) ->
  (forall m', seg m' b1 (map hed R ++ ut) -> seg m' a (cat (map tgd R)) -> only (fun i => within a (length (cat (map org R))) i \/ within b1 n1 i) m m' -> Q tt m') ->
  wp (tag_blocks b1 a e bs) Q m.
Proof.
  intros R ut a e m Q HS EU S1 SA F1 F2 -> HQ. unfold tag_blocks. set (LE := length (cat (map org R))) in *.
  assert (LE = length R * bs) as ELE by (unfold LE; rewrite (cat_len _ bs); auto; now rewrite map_length).
  apply wp_loop' with
    (I := fun '(ia, ix) m1 => exists R1 R2, R = R1 ++ R2 /\ ia = b1 + length R1 /\ ix = a + length R1 * bs /\
       seg m1 b1 (map hed R1 ++ map tag R2 ++ ut) /\ seg m1 a (cat (map tgd R1) ++ cat (map org R2)) /\ only (fun i => within a LE i \/ within b1 n1 i) m m1)
    (mu := fun '(_, ix) => a + LE - ix).
  - exists [], R. simpl. rewrite ?cat_nil, <- EU. cj; auto; try lia. apply only_refl.
  - lia.
  - intros [ia ix] m1 (R1 & R2 & -> & -> & -> & T1 & T2 & O1). rewrite app_length in ELE. rewrite map_app in HS. apply sized_app in HS as [HS1 HS2].
    destruct (Nat.ltb_spec (a + length R1 * bs) (a + LE)) as [H|H].
    + destruct R2 as [|r R2]; [simpl in ELE; nia|]. simpl map in *. apply sized_cons in HS2 as [Hr HS2]. simpl in Hr. simpl length in ELE.
      assert (length (cat (map tgd R1)) = length R1 * bs) as EL by (rewrite (cat_len _ bs), map_length; auto using tgd_sized).
      assert (length R1 < n1) as E1. { rewrite EU, app_length, map_length, app_length. simpl. lia. }
      apply seg_app in T1 as [T1 T1']. simpl in T1'. apply seg_cons in T1' as [V1 T1']. rewrite map_length in V1, T1'.
      apply seg_app in T2 as [T2 T2']. rewrite cat_cons in T2'. apply seg_cons in T2' as [V2 T2']. rewrite EL in V2, T2'.
      apply wp_bind. eapply swap_region; [exact V1|exact V2|]. intros m2 W1 W2 O2. apply wp_ret. split; [|nia].
      assert (n1 = length R1 + S (length R2) + length ut) as EN. { rewrite EU, app_length, map_length, app_length. simpl. lia. }
      exists (R1 ++ [r]), R2. rewrite app_length. simpl length. cj; try lia.
      * now rewrite <- app_assoc.
      * rewrite map_app, <- app_assoc. simpl. apply seg_app. split. { assert (length (map hed R1) = length R1) as E2 by apply map_length. keep O2 T1. }
        rewrite map_length. apply seg_cons. split; auto. assert (length (map tag R2 ++ ut) = length R2 + length ut) as E2 by (rewrite app_length, map_length; auto). keep O2 T1'.
      * rewrite map_app, cat_app, <- app_assoc. apply seg_app. split. { keep O2 T2. }
        rewrite EL. simpl map. rewrite (cat_cons _ (tgd r)), cat_nil, app_nil_r. simpl. apply seg_cons. split; auto.
        apply seg_len in T2' as HTL. rewrite app_length in HTL.
        assert (length (snd r ++ cat (map org R2)) = bs - 1 + length R2 * bs) as E2. { rewrite app_length, (cat_len _ bs), map_length; auto. lia. }
        assert (LE = length R1 * bs + bs + length R2 * bs) as E3 by nia. keep O2 T2'.
      * eapply only_trans; [exact O1|]. eapply only_weaken; [exact O2|]. intros i [->| ->]; unfold within; [right; lia|left; nia].
    + destruct R2 as [|r R2]; [|simpl in ELE; nia]. simpl in *. rewrite cat_nil, app_nil_r in T2. apply wp_ret. rewrite app_nil_r in *. apply HQ; auto.
Qed.

Section Roll.
Variables (l1 l2 : list A) (m0 : mem A).
Definition foot i := within f N i \/ within b1 n1 i \/ within b2 n2 i \/ within cb K i.

Lemma roll_blocks_wp : forall F R ut blockA blockB RB (Q : range -> mem A -> Prop),
  R <> [] -> u1 = map tag R ++ ut -> seg m0 b1 (map hed R ++ ut) -> sized bs (map org R) -> sorted lt (F ++ cat (map org R)) -> sorted lt l2 -> l2 <> [] ->
  parked m0 F f -> seg m0 (f + length F) (cat (map tgd R) ++ l2) -> N = length F + length (cat (map tgd R)) + length l2 -> l1 = F ++ cat (map org R) ->
  blockA = (f + length F, f + length F + length (cat (map tgd R))) ->
  blockB = (f + length F + length (cat (map tgd R)), f + length F + length (cat (map tgd R)) + Nat.min bs (length l2)) ->
  RB = (f + length F + length (cat (map tgd R)), f + N) ->
  forall first,
  (forall O X W p m', seg m' f O -> p = f + length O -> parked m' X p -> seg m' (p + length X) W -> sorted lt X -> sorted lt W -> length O + length X + length W = N ->
     O ++ ssort lt (X ++ W) = ssort lt (l1 ++ l2) -> seg m' b1 u1 -> only foot m0 m' -> Q (p, p + length X) m') ->
  wp (roll_blocks comp proj triv cb K bs (b2, b2 + n2) RB b1 (f, f + length F) (first, first) blockA blockB) Q m0.
Proof.
  intros F R ut blockA blockB RB Q HR EU S1 HS OF OL NL PK SM EN EL1 -> -> -> first HQ. unfold roll_blocks, len. unfold start, end_. simpl fst. simpl snd.
  apply wp_loop' with
    (I := fun '(ia, lastA, lastB, blockA, blockB) m1 => exists O X Y0 L r R bl Z ub ut p e,
       u1 = ub ++ map tag (r :: R) ++ ut /\ seg m1 b1 (ub ++ map hed (r :: R) ++ ut) /\ ia = b1 + length ub /\
       Permutation bl (map tgd (r :: R)) /\ sized bs (map org (r :: R)) /\ seg m1 f O /\ p = f + length O /\ parked m1 X p /\ seg m1 (p + length X) (Y0 ++ L ++ cat bl ++ Z) /\
       length O + length X + length Y0 + length L + length (cat bl) + length Z = N /\
       lastA = (p, p + length X) /\ (lastB = (p + length X + length Y0, p + length X + length Y0 + length L) \/ L = [] /\ snd lastB - fst lastB = 0 /\ Z <> []) /\
       blockA = (p + length X + length Y0 + length L, e) /\ e = p + length X + length Y0 + length L + length (cat bl) /\
       (blockB = (e, e + Nat.min bs (length Z)) \/ Z = [] /\ snd blockB - fst blockB = 0) /\
       length L <= bs /\ sorted lt (X ++ cat (map org (r :: R))) /\ sorted lt (Y0 ++ L ++ Z) /\ (forall y, In y Y0 -> lt y (hed r) = true) /\
       O ++ ssort lt ((X ++ cat (map org (r :: R))) ++ (Y0 ++ L ++ Z)) = ssort lt (l1 ++ l2) /\ only foot m0 m1)
    (mu := fun '(_, _, _, blockA, _) => f + N - fst blockA).
  - destruct R as [|r R]; [congruence|]. exists [], F, [], [], r, R, (map tgd (r :: R)), l2, [], ut, f, (f + length F + length (cat (map tgd (r :: R)))). simpl app. cj; auto; try (cbn [length]; lia).
    + apply seg_nil. apply seg_len in SM. lia.
    + right. simpl. cj; auto. lia.
    + cbn [length]. f_equal; lia.
    + now rewrite EL1.
    + apply only_refl.
  - simpl. lia.
  - intros [[[[ia lastA] lastB] blockA] blockB] m1 (O & X & Y0 & L & r & R' & bl & Z & ub & ut' & p & e & EU' & T1 & -> & HP & HS' & SO & -> & PK1 & SM1 & EN1 & -> & HLB & -> & -> & HBB & HLL & OX & OY & HY & EQ & O1).
    simpl fst. simpl snd.
    remember (f + length O + length X + length Y0 + length L) as bA eqn:EbA.
    assert (sized bs bl) as HSB. { eapply sized_perm; [symmetry; exact HP|]. now apply tgd_sized. }
    assert (length (cat bl) = S (length R') * bs) as EBL. { rewrite (cat_len _ bs) by auto. rewrite (Permutation_length HP), map_length. reflexivity. }
    assert (nth_error m1 (b1 + length ub) = Some (Val (hed r))) as VI. { apply seg_app in T1 as [_ T1]. simpl in T1. apply seg_cons in T1. tauto. }
    assert (length ub < n1) as HUB. { rewrite EU', !app_length. simpl. lia. }
    assert (n1 = length ub + S (length R') + length ut') as EN1'. { rewrite EU', !app_length, map_length. simpl. lia. }
    assert (In (hed r) (cat (map org (r :: R')))) as HIN. { simpl map. rewrite cat_cons. now left. }
    assert (forall x, In x (cat (map org (r :: R'))) -> le lt (hed r) x) as HMIN.
    { intros x Hx. simpl map in Hx. rewrite cat_cons in Hx. destruct Hx as [<-|Hx]; [apply (le_refl lt HW)|].
      apply (sorted_app_r comp proj) in OX. simpl map in OX. rewrite cat_cons in OX. apply sorted_cons in OX as [OX _]; auto. }
    (* the test *)
    apply wp_bind.
    apply wp_mono with (Q := fun (d : bool) m' => m' = m1 /\ (d = true -> exists L' x, L = L' ++ [x] /\ lt x (hed r) = false) /\ (d = false -> forall x, In x L -> lt x (hed r) = true)).
    { destruct HLB as [->|(-> & -> & _)].
      - simpl fst. simpl snd. match goal with |- context [0 <? ?n] => replace n with (length L) by lia end. destruct (Nat.ltb_spec 0 (length L)) as [H|H].
        + destruct (last_split _ L) as (L' & x & ->); [intros ->; simpl in H; lia|]. apply wp_bind. eapply (comp_at_wp comp proj m1 _ _ x (hed r)); [|exact VI|].
          * apply seg_app in SM1 as [_ SM1]. apply seg_app in SM1 as [SM1 _]. apply seg_last in SM1. have SM1.
          * apply wp_ret. cj; auto.
            -- intros E. apply negb_true_iff in E. eauto.
            -- intros E y Hy. apply negb_false_iff in E. eapply (le_lt_trans lt HW); [|exact E]. apply (sorted_last_max comp proj HW L'); auto.
               apply (sorted_app_r comp proj) in OY. now apply (sorted_app_l comp proj) in OY.
        + apply wp_ret. destruct L; [|simpl in H; lia]. cj; auto; try discriminate.
      - replace (0 <? 0) with false by reflexivity. apply wp_ret. cj; auto; try discriminate. }
    intros d m1' (-> & HD1 & HD2).
    destruct (d || (snd blockB - fst blockB =? 0)) eqn:ED.
    + (* a drop *)
      assert (forall z, In z Z -> exists x, In x L /\ lt x (hed r) = false /\ le lt x z) as HZ.
      { destruct d.
        - intros z Hz. destruct (HD1 eq_refl) as (L' & x & -> & Hx). exists x. cj; auto. { apply in_or_app. right. now left. }
          apply (sorted_app_r comp proj) in OY. apply sorted_app in OY as (_ & _ & OY). apply OY; auto. apply in_or_app. right. now left.
        - simpl in ED. apply Nat.eqb_eq in ED. intros z Hz. destruct HBB as [->|[-> _]]; [|destruct Hz]. simpl in ED. destruct Z; [destruct Hz|simpl in ED; lia]. }
      assert (lastB = (f + length O + length X + length Y0, f + length O + length X + length Y0 + length L)) as ->.
      { destruct HLB as [H|(-> & _ & NZ)]; [now rewrite H, EbA|]. exfalso. destruct Z as [|z Z]; [congruence|]. destruct (HZ z) as (x & [] & _). now left. }
      rewrite !app_assoc in SM1. apply seg_app in SM1 as [SM1 SZ]. rewrite <- !app_assoc in SM1. rewrite !app_length in SZ.
      apply wp_bind. eapply (drop_block_wp X Y0 L (tgd r) (map tgd R') bl (f + length O) (b1 + length ub) (hed r)); auto; try (unfold within; unfold apart in *; lia).
      { now apply (sorted_app_l comp proj) in OX. }
      { rewrite app_assoc in OY. now apply (sorted_app_l comp proj) in OY. }
      { eapply tags_strict; eauto. }
      intros L1 L2 bl' q m2 -> HU HV HPB -> T2 PK2 T3 VI2 O2. rewrite app_length in *. simpl snd in PK2.
      pose proof HS' as HS''. simpl map in HS''. apply sized_cons in HS'' as [Hr HS'']. simpl in Hr.
      assert (length (cat bl') = length R' * bs) as EBL'. { rewrite (cat_len _ bs). { rewrite (Permutation_length HPB), map_length. reflexivity. } eapply sized_perm; [symmetry; exact HPB|]. now apply tgd_sized. }
      assert (ssort lt ((X ++ cat (map org (r :: R'))) ++ (Y0 ++ (L1 ++ L2) ++ Z)) = ssort lt (X ++ Y0 ++ L1) ++ ssort lt (cat (map org (r :: R')) ++ L2 ++ Z)) as ESP.
      { replace (Y0 ++ (L1 ++ L2) ++ Z) with ((Y0 ++ L1) ++ L2 ++ Z) in * by now rewrite <- !app_assoc. apply ssort_split; auto.
        - intros x y Hx Hy. eapply (lt_le_trans lt HW); [|now apply HMIN]. apply in_app_or in Hy as [Hy|Hy]; auto.
        - intros x y Hx Hy. eapply (le_trans lt HW) with (hed r). { apply sorted_app in OX as (_ & _ & OX). now apply OX. }
          apply in_app_or in Hy as [Hy|Hy]. { apply HV. auto. } destruct (HZ y Hy) as (x' & _ & Hx' & Hxy). eapply (le_trans lt HW); [|exact Hxy]. exact Hx'. }
      rewrite ESP in EQ.
      assert (seg m2 f (O ++ ssort lt (X ++ Y0 ++ L1))) as SO2. { apply seg_app. split; auto. keep O2 SO. }
      assert (length (ssort lt (X ++ Y0 ++ L1)) = length X + length Y0 + length L1) as ELS by (rewrite (ssort_length lt), !app_length; lia).
      assert (seg m2 (f + length O + length X + length Y0 + length L1 + bs) (L2 ++ cat bl' ++ Z)) as T4.
      { rewrite app_assoc. apply seg_app. split; auto. rewrite app_length. assert (seg m2 (f + length O + length X + length Y0 + (length L1 + length L2) + length (cat bl)) Z) as SZ2 by keep O2 SZ. have SZ2. }
      assert (seg m2 b1 ((ub ++ [tag r]) ++ map hed R' ++ ut')) as T5.
      { rewrite <- app_assoc. apply seg_app in T1 as [T1 T1']. simpl map in T1'. simpl app in T1'. apply seg_cons in T1' as [_ T1']. apply seg_app. split; [keep O2 T1|].
        simpl app. apply seg_cons. split; auto. assert (length (map hed R' ++ ut') = length R' + length ut') as E by (rewrite app_length, map_length; auto). keep O2 T1'. }
      assert (only foot m0 m2) as O3. { eapply only_trans; [exact O1|]. eapply only_weaken; [exact O2|]. unfold foot. intros i [Hi|[->|[Hi|Hi]]]; auto; [left|right; left]; unfold within in *; lia. }
      assert (sorted lt (L2 ++ Z)) as OLZ. { replace (Y0 ++ (L1 ++ L2) ++ Z) with ((Y0 ++ L1) ++ L2 ++ Z) in OY by now rewrite <- !app_assoc. now apply (sorted_app_r comp proj) in OY. }
      simpl fst. simpl snd. match goal with |- context [?n =? 0] => replace n with (length (cat bl')) by lia end.
      destruct (Nat.eqb_spec (length (cat bl')) 0) as [E0|E0]; apply wp_ret.
      * destruct R' as [|r' R']; [|simpl in EBL'; lia]. simpl map in *. try rewrite cat_nil in *.
        assert (bl' = []) as -> by (apply Permutation_nil; now symmetry). rewrite ?cat_cons, ?cat_nil, ?app_nil_r in *. simpl app in T4, T5. simpl fst in *. simpl snd in *.
        replace (f + length O + length X + length Y0 + length L1 + bs) with (f + length O + length X + length Y0 + length L1 + length (hed r :: snd r)) by (simpl; lia).
        eapply HQ with (O := O ++ ssort lt (X ++ Y0 ++ L1)) (W := L2 ++ Z); auto.
        -- rewrite app_length. lia.
        -- simpl length. have T4.
        -- now apply (sorted_app_r comp proj) in OX.
        -- rewrite !app_length. simpl length in *. lia.
        -- rewrite <- app_assoc. exact EQ.
        -- rewrite EU'. rewrite <- app_assoc in T5. exact T5.
      * destruct R' as [|r' R']; [simpl in EBL'; lia|]. split; [|simpl fst; lia].
        exists (O ++ ssort lt (X ++ Y0 ++ L1)), (hed r :: snd r), [], L2, r', R', bl', Z, (ub ++ [tag r]), ut', (f + length O + length X + length Y0 + length L1), (bA + length (cat bl)).
        simpl length. rewrite !(app_length O), !(app_length ub). simpl length. cj; auto; try lia.
        -- rewrite <- app_assoc. exact EU'.
        -- simpl app. have T4.
        -- left. f_equal; lia.
        -- f_equal; lia.
        -- simpl map in OX |- *. rewrite cat_cons in OX. now apply (sorted_app_r comp proj) in OX.
        -- rewrite <- app_assoc. simpl map in EQ |- *. rewrite cat_cons in EQ. exact EQ.
    + (* a B block goes before the A blocks *)
      apply orb_false_iff in ED as [-> ED]. apply Nat.eqb_neq in ED. destruct HBB as [->|[_ H]]; [|lia]. simpl fst in *. simpl snd in *.
      replace (bA + length (cat bl) + Nat.min bs (length Z) - (bA + length (cat bl))) with (Nat.min bs (length Z)) in * by lia.
      assert (forall y, In y (Y0 ++ L) -> lt y (hed r) = true) as HYL. { intros y Hy. apply in_app_or in Hy as [Hy|Hy]; auto. }
      apply seg_app in SM1 as [SY SM1]. apply seg_app in SM1 as [SL SM1]. pose proof SM1 as SM2. apply seg_app in SM1 as [SB SZ].
      destruct (Nat.ltb_spec (Nat.min bs (length Z)) bs) as [HZ|HZ].
      * replace (Nat.min bs (length Z)) with (length Z) in * by lia.
        apply wp_bind. eapply (rotate_region triv (cat bl) Z); [have SM2|lia|lia|]. intros m2 T2 O2. apply wp_ret. split; [|simpl fst; lia].
        exists O, X, (Y0 ++ L), Z, r, R', bl, [], ub, ut', (f + length O), (bA + length (cat bl) + length Z).
        assert (length (ub ++ map hed (r :: R') ++ ut') = n1) as ET by (rewrite !app_length, map_length; simpl; lia).
        rewrite !app_length. simpl length. cj; auto; try lia.
        -- keep O2 T1.
        -- keep O2 SO.
        -- eapply parked_only; [exact O2| |exact PK1]. win.
        -- rewrite app_nil_r, <- !app_assoc. apply seg_app. split; [keep O2 SY|]. apply seg_app. split; [keep O2 SL|]. have T2.
        -- left. f_equal; lia.
        -- f_equal; lia.
        -- right. split; auto. simpl. lia.
        -- now rewrite app_nil_r, <- (app_assoc Y0).
        -- now rewrite app_nil_r, <- (app_assoc Y0).
        -- eapply only_trans; [exact O1|]. eapply only_weaken; [exact O2|]. unfold foot. win.
      * assert (bs <= length Z) as HZ' by lia. rewrite Nat.min_l in * by lia. destruct bl as [|c bl]; [apply Permutation_nil in HP; discriminate|].
        rewrite <- (firstn_skipn bs Z) in OY, EQ, SZ. set (Z1 := firstn bs Z) in *. set (Z2 := skipn bs Z) in *.
        assert (length Z1 = bs) as E1 by (unfold Z1; rewrite firstn_length; lia). assert (length Z = bs + length Z2) as E2 by (unfold Z2; rewrite skipn_length; lia).
        apply sized_cons in HSB as [Hc HSB].
        assert (length (cat (c :: bl)) = bs + length (cat bl)) as E3. { rewrite cat_cons. simpl. rewrite app_length. lia. }
        assert (length (cat (bl ++ [c])) = bs + length (cat bl)) as E4. { rewrite cat_app, cat_cons, cat_nil, app_nil_r, app_length. simpl. lia. }
        rewrite cat_cons, app_comm_cons in SB. apply seg_app in SB as [SB1 SB2]. apply seg_app in SZ as [SZ1 SZ2]. simpl length in SB2.
        apply wp_bind. eapply (swap_ranges_region (fst c :: snd c) Z1); [have SB1|have SZ1|cbn [length]; lia|cbn [length]; lia|cbn [length]; win|]. change (length (fst c :: snd c)) with (S (length (snd c))). rewrite Hc. intros m2 T2 T3 O2. apply wp_ret. split; [|simpl fst; lia].
        exists O, X, (Y0 ++ L), Z1, r, R', (bl ++ [c]), Z2, ub, ut', (f + length O), (bA + length (cat (c :: bl)) + bs).
        assert (length (ub ++ map hed (r :: R') ++ ut') = n1) as ET by (rewrite !app_length, map_length; simpl; lia).
        rewrite !(app_length Y0). cj; auto; try lia.
        -- keep O2 T1.
        -- rewrite <- HP. symmetry. apply Permutation_cons_append.
        -- keep O2 SO.
        -- eapply parked_only; [exact O2| |exact PK1]. win.
        -- rewrite <- !app_assoc. apply seg_app. split; [keep O2 SY|]. apply seg_app. split; [keep O2 SL|]. apply seg_app. split; [have T2|].
           rewrite cat_app, <- app_assoc. apply seg_app. split; [keep O2 SB2|]. rewrite cat_cons, cat_nil, app_nil_r. apply seg_app. split; [have T3|]. cbn [length]. keep O2 SZ2.
        -- left. f_equal; lia.
        -- f_equal; lia.
        -- left. f_equal. destruct (Nat.ltb_spec (f + N - bs) (bA + length (cat (c :: bl)) + bs)); lia.
        -- now rewrite <- (app_assoc Y0).
        -- now rewrite <- (app_assoc Y0).
        -- eapply only_trans; [exact O1|]. eapply only_weaken; [exact O2|]. unfold foot. win.
Qed.
End Roll.
(** ** Merging by blocks *)
Lemma merge_blocks_wp : forall l1 l2 m first RA RB buffer1 (Q : unit -> mem A -> Prop), sorted lt l1 -> sorted lt l2 -> l2 <> [] -> N = length l1 + length l2 ->
  seg m f (l1 ++ l2) -> seg m b1 u1 -> free m -> length l1 / bs <= n1 -> RA = (f, f + length l1) -> RB = (f + length l1, f + N) -> start buffer1 = b1 ->
  (forall m', seg m' f (ssort lt (l1 ++ l2)) -> seg m' b1 u1 -> free m' -> only foot m m' -> Q tt m') ->
  wp (merge_blocks comp proj triv first cb K bs buffer1 (b2, b2 + n2) RA RB) Q m.
Proof.
  intros l1 l2 m first RA RB buffer1 Q OA OB NB EN SM S1 FR HB -> -> E1 HQ. unfold merge_blocks, len. rewrite E1. unfold start, end_. simpl fst. simpl snd. clear E1 buffer1.
  replace (f + length l1 - f) with (length l1) by lia. set (w := length l1 mod bs). assert (w < bs) as Hw by (apply Nat.mod_upper_bound; lia). assert (w <= length l1) as Hw' by (apply Nat.mod_le; lia).
  pose proof (Nat.div_mod (length l1) bs ltac:(lia)) as ED. fold w in ED.
  assert (length (firstn w l1) = w) as EF by (rewrite firstn_length; lia). assert (length (skipn w l1) = length l1 / bs * bs) as ES by (rewrite skipn_length; lia).
  destruct (cut_blocks (length l1 / bs) (skipn w l1) u1 ES HB) as (R & ut & EC & EU & HS & HR).
  rewrite <- (firstn_skipn w l1) in OA, SM, HQ. rewrite EC in *. set (F := firstn w l1) in *.
  assert (length l1 = w + length (cat (map org R))) as EL by lia.
  assert (length (cat (map tgd R)) = length (cat (map org R))) as ET. { rewrite !(cat_len _ bs); auto using tgd_sized. now rewrite !map_length. }
  rewrite <- app_assoc in SM. apply seg_app in SM as [SF SM]. apply seg_app in SM as [SA SB]. rewrite EF in SA, SB.
  apply wp_bind. eapply (tag_blocks_wp R ut); [exact HS|exact EU|exact S1|exact SA|lia|lia|lia|]. intros m1 T1 T2 O1.
  assert (length (map hed R ++ ut) = n1) as EN1 by (rewrite EU, !app_length, !map_length; auto).
  destruct FR as (LC & v & PV & SV). assert (length v = n2) as HV by now rewrite (Permutation_length PV).
  assert (seg m1 f F) as SF1 by keep O1 SF. assert (seg m1 (f + w + length (cat (map tgd R))) l2) as SB1. { rewrite ET. keep O1 SB. }
  assert (lives m1 cb K) as LC1 by keep O1 LC. assert (seg m1 b2 v) as SV1 by keep O1 SV.
  apply wp_bind. replace (f + w - f) with w by lia. replace (b2 + n2 - b2) with n2 by lia.
  apply wp_mono with (Q := fun _ m2 => parked m2 F f /\ only (fun i => within f w i \/ within b2 n2 i \/ within cb K i) m1 m2).
  { unfold parked. rewrite EF. destruct ((0 <? K) && (w <=? K)) eqn:EM.
    - apply andb_true_iff in EM as [_ EM]. apply Nat.leb_le in EM. apply wp_bind. eapply (move_range_region F); [exact SF1|lia|eapply lives_sub; [exact LC1| |]; lia|unfold apart in *; lia|].
      rewrite EF. intros m2 T3 T4 O2. apply wp_ret. split; [|eapply only_weaken; [exact O2|win]]. cj; auto.
      + eapply lives_part; [exact LC1|exact O2|eapply seg_lives_eq; [exact T3|lia|symmetry; exact EF]|auto|win].
      + exists v. split; auto. keep O2 SV1.
    - destruct (Nat.ltb_spec 0 n2) as [E2|E2].
      + assert (bs <= n2) as HB2' by auto. assert (length (firstn w v) = w) as EG by (rewrite firstn_length; lia). assert (length (skipn w v) = n2 - w) as EG' by (rewrite skipn_length; lia).
        rewrite <- (firstn_skipn w v) in PV, SV1. set (g := firstn w v) in *. set (v' := skipn w v) in *. apply seg_app in SV1 as [SG SW].
        apply wp_bind. eapply (swap_ranges_region F g); [exact SF1|exact SG|lia|lia|win|]. rewrite EF. intros m2 T3 T4 O2. apply wp_ret. split; [|eapply only_weaken; [exact O2|win]]. split; [keep O2 LC1|].
        exists g, v'. cj; auto. apply seg_app. split; auto. rewrite EF. rewrite EG in SW. keep O2 SW.
      + apply wp_ret. split; [|apply only_refl]. cj; eauto. }
  intros _ m2 [PK O2].
  assert (seg m2 (f + w) (cat (map tgd R) ++ l2)) as SM2. { apply seg_app. split; [keep O2 T2|keep O2 SB1]. }
  assert (seg m2 b1 (map hed R ++ ut)) as T3 by keep O2 T1.
  assert (only foot m m2) as O3. { eapply only_trans; [eapply only_weaken; [exact O1|]|eapply only_weaken; [exact O2|]]; unfold foot; win. }
  replace (f + length l1 - (f + w)) with (length (cat (map tgd R))) by lia.
  replace (f + N - (f + length l1)) with (length l2) by lia. replace (f + length l1) with (f + w + length (cat (map tgd R))) by lia.
  apply wp_bind. apply wp_mono with (Q := fun lastA m' => exists O X W p, lastA = (p, p + length X) /\ seg m' f O /\ p = f + length O /\ parked m' X p /\ seg m' (p + length X) W /\
     sorted lt X /\ sorted lt W /\ length O + length X + length W = N /\ O ++ ssort lt (X ++ W) = ssort lt ((F ++ cat (map org R)) ++ l2) /\ seg m' b1 u1 /\ only foot m m').
  { destruct (Nat.ltb_spec 0 (length (cat (map tgd R)))) as [H|H].
    - rewrite <- EF. eapply (roll_blocks_wp (F ++ cat (map org R)) l2 m2 F R ut); eauto; rewrite ?EF; auto; try lia.
      + intros ->. rewrite cat_nil in H. simpl in H. lia.
      + intros O X W p m' Q1 Q2 Q3 Q4 Q5 Q6 Q7 Q8 Q9 Q10. exists O, X, W, p. cj; auto. eapply only_trans; eauto.
    - apply wp_ret. assert (R = []) as ->. { destruct R as [|r R]; auto. simpl map in H. rewrite cat_cons in H. simpl in H. lia. }
      simpl map in *. rewrite cat_nil, ?app_nil_r in *. simpl app in *. simpl length in *. rewrite Nat.add_0_r in *.
      exists [], F, l2, f. rewrite EF. simpl. cj; auto; try lia. { apply seg_nil. apply seg_len in SM2. lia. } { now rewrite EU. } }
  intros lastA m3 (O & X & W & p & -> & SO & -> & PK3 & SW & OX & OW & EN3 & EQ & S3 & O4).
  eapply (merge_last_wp X W); [exact OX|exact OW|exact PK3|exact SW|lia|lia|auto|lia|]. intros m4 FR4 S4 O5. apply HQ; auto.
  - rewrite <- EQ. apply seg_app. split; auto. keep O5 SO.
  - keep O5 S3.
  - eapply only_trans; [exact O4|eapply only_weaken; [exact O5|]]. unfold foot. win.
Qed.

Lemma merge_pair_wp : forall l1 l2 m first RA RB buffer1 (Q : unit -> mem A -> Prop), sorted lt l1 -> sorted lt l2 -> l1 <> [] -> l2 <> [] -> N = length l1 + length l2 ->
  seg m f (l1 ++ l2) -> seg m b1 u1 -> free m -> length l1 / bs <= n1 -> RA = (f, f + length l1) -> RB = (f + length l1, f + N) -> start buffer1 = b1 ->
  (forall m', seg m' f (ssort lt (l1 ++ l2)) -> seg m' b1 u1 -> free m' -> only foot m m' -> Q tt m') ->
  wp (merge_pair comp proj triv first cb K bs buffer1 (b2, b2 + n2) RA RB) Q m.
Proof.
  intros l1 l2 m first RA RB buffer1 Q OA OB NA NB EN SM S1 FR HB -> -> E1 HQ. unfold merge_pair, start, end_. simpl fst. simpl snd.
  destruct (list_ends _ l1 NA) as [(x1 & t1 & E11) (s1 & y1 & E12)]. destruct (list_ends _ l2 NB) as [(x2 & t2 & E21) (s2 & y2 & E22)].
  pose proof SM as SM0. apply seg_app in SM as [SA SB].
  assert (nth_error m f = Some (Val x1)) as V1. { rewrite E11 in SA. now apply seg_first in SA. }
  assert (nth_error m (f + length l1 - 1) = Some (Val y1)) as V2. { rewrite E12 in SA |- *. now apply seg_last in SA. }
  assert (nth_error m (f + length l1) = Some (Val x2)) as V3. { rewrite E21 in SB. now apply seg_first in SB. }
  assert (nth_error m (f + N - 1) = Some (Val y2)) as V4. { rewrite E22 in SB. apply seg_last in SB. rewrite <- E22 in SB. have SB. }
  apply wp_bind. eapply comp_at_wp; [exact V4|exact V1|]. destruct (lt y2 x1) eqn:EC.
  - apply wp_bind. eapply (rotate_region triv l1 l2); [exact SM0|auto|lia|]. intros m1 S2 O1. apply wp_ret. apply HQ; auto.
    + replace (ssort lt (l1 ++ l2)) with (l2 ++ l1); auto. rewrite E11 in OA. rewrite E22 in OB. rewrite E11, E22. symmetry. apply (ssort_swapped comp proj HC); auto.
    + keep O1 S1.
    + destruct FR as (LC & v & PV & SV). split; [keep O1 LC|]. exists v. split; auto. assert (length v = n2) by now rewrite (Permutation_length PV). keep O1 SV.
    + eapply only_weaken; [exact O1|]. unfold foot. win.
  - apply wp_bind. eapply comp_at_wp; [exact V3|exact V2|]. destruct (lt x2 y1) eqn:EC2.
    + eapply (merge_blocks_wp l1 l2); eauto.
    + apply wp_ret. apply HQ; auto; [|apply only_refl]. replace (ssort lt (l1 ++ l2)) with (l1 ++ l2); auto. symmetry. apply ssort_id; auto. eapply (sorted_join comp proj HC l1 l2); eauto.
Qed.
End Pair.
