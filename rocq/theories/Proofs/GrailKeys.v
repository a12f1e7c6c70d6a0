(** grail_sort: the selection of the keys, and the sort that needs no key. *)
From Coq Require Import List Arith Lia Permutation Bool ZArith.
From Verif Require Import Spec.Order Lang.Mem Proofs.Wp Proofs.OrderLib Model.Rotate Proofs.Rotate Proofs.RotateGcd Proofs.Moves Model.Search Proofs.Search Model.Insertion Proofs.MergeSort Model.Grail Proofs.GrailMerge Proofs.GrailSmart Proofs.GrailBlocks Proofs.GrailCombine Proofs.GrailChunks Proofs.GrailBuild.
From Verif Require Spec.Probes Proofs.ProbesB.
Import ListNotations.
Local Arguments nth_error : simpl never.
Local Arguments upd : simpl never.
Local Arguments loop : simpl never.
Local Arguments Z.sub : simpl never.
Local Arguments Nat.mul : simpl never.
Local Arguments Nat.modulo : simpl never.
Local Arguments Nat.pow : simpl never.

Lemma to_int_small : forall n, (Z.of_nat n < 2 ^ 31)%Z -> to_int n = Z.of_nat n.
Proof. intros n H. unfold to_int. rewrite Z.mod_small; lia. Qed.

Section Keys.
Context {A T : Type} (comp : T -> T -> bool) (proj : A -> T) (triv : bool).
Notation lt := (by_proj comp proj).
Implicit Types (pre post : mem A).
Hypothesis HW : strict_weak_order lt.
Local Notation ssort := (ssort lt).
Local Notation sb := (sb comp proj).
Local Notation same := (same_order_in_classes lt).

Lemma same_move : forall x l, (forall y, In y l -> lt x y = true \/ lt y x = true) -> same (l ++ [x]) (x :: l).
Proof.
  intros x. induction l as [|y l IH]; intros H. { apply same_refl. }
  eapply same_trans; [apply (same_cons lt y (l ++ [x])), IH; intros; apply H; now right|].
  apply (same_app lt [y; x] l [x; y] l); [|apply same_refl]. destruct (H y ltac:(now left)) as [E|E].
  - apply (same_swap lt HW [y] [x]). simpl. intros a b [<-|[]] [<-|[]]. auto.
  - apply same_sym, (same_swap lt HW [x] [y]). simpl. intros a b [<-|[]] [<-|[]]. auto.
Qed.
Lemma strict_join : forall l1 l2, strict lt l1 -> strict lt l2 -> (forall x y, In x l1 -> In y l2 -> lt x y = true) -> strict lt (l1 ++ l2).
Proof.
  induction 1 as [|x l H1 H2 IH]; intros H3 H; simpl; auto. constructor.
  - intros y Hy. apply in_app_iff in Hy as [Hy|Hy]; auto. apply H; auto. now left.
  - apply IH; auto. intros; apply H; auto. now right.
Qed.

Lemma sub_trans : forall ys zs : list A, Spec.Probes.subseq ys zs -> forall xs, Spec.Probes.subseq xs ys -> Spec.Probes.subseq xs zs.
Proof.
  induction 1 as [|x ys zs H IH|x ys zs H IH]; intros xs HX; auto.
  - constructor. auto.
  - inversion HX; subst; [apply Spec.Probes.subseq_skip|apply Spec.Probes.subseq_keep]; auto.
Qed.

Lemma find_keys_wp : forall x0 xs pre post first last key_count (Q : nat -> mem A -> Prop), first = length pre -> last = first + length (x0 :: xs) -> 0 < key_count ->
  (forall k rest, strict lt k -> same (x0 :: xs) (k ++ rest) -> 0 < length k <= key_count ->
     (length k < key_count -> forall z, In z rest -> exists y, In y k /\ lt y z = false /\ lt z y = false) -> Spec.Probes.subseq rest (x0 :: xs) -> Q (length k) (pre ++ map Val (k ++ rest) ++ post)) ->
  wp (find_keys comp proj triv first last key_count) Q (pre ++ map Val (x0 :: xs) ++ post).
Proof.
  intros x0 xs pre post first last key_count Q -> -> HK HQ. unfold find_keys. apply wp_bind.
  apply wp_loop' with
    (I := fun '(u, h0, dist) m => exists s1 k s2 rem, m = pre ++ map Val (s1 ++ k ++ s2 ++ rem) ++ post /\ strict lt k /\ same (x0 :: xs) (k ++ s1 ++ s2 ++ rem) /\
       length s1 + length k + length s2 + length rem = length (x0 :: xs) /\ (forall z, In z (s1 ++ s2) -> exists y, In y k /\ lt y z = false /\ lt z y = false) /\
       h0 = length pre + length s1 /\ dist = length k /\ u = length pre + length s1 + length k + length s2 /\ 0 < length k <= key_count /\ Spec.Probes.subseq (s1 ++ s2 ++ rem) (x0 :: xs))
    (mu := fun '(u, h0, dist) => length pre + length (x0 :: xs) - u).
  - exists [], [x0], [], xs. simpl. cj; auto; try lia.
    + constructor; [intros y []|constructor].
    + apply same_refl.
    + constructor. apply ProbesB.subseq_refl.
  - simpl. lia.
  - intros [[u h0] dist] m (s1 & k & s2 & rem & -> & HS & HSM & HL & HC & -> & -> & -> & Hk & HSUB).
    assert (length k = key_count \/ rem = [] -> wp (let* _ := rotate_ra triv (length pre) (length pre + length s1) (length pre + length s1 + length k) in ret (length k)) Q (pre ++ map Val (s1 ++ k ++ s2 ++ rem) ++ post)) as HEND.
    { intros HE. apply wp_bind. unfold rotate_ra. reshape (pre ++ map Val (s1 ++ k) ++ (map Val (s2 ++ rem) ++ post)). apply rotate_wp; auto. apply wp_ret.
      replace (pre ++ map Val (k ++ s1) ++ map Val (s2 ++ rem) ++ post) with (pre ++ map Val (k ++ s1 ++ s2 ++ rem) ++ post) by solve_app. apply HQ; auto.
      intros Hkc z Hz. destruct HE as [HE| ->]; [lia|]. rewrite app_nil_r in Hz. now apply HC. }
    destruct rem as [|x rem].
    { simpl length in HL. match goal with |- context[if ?a =? ?b then _ else _] => destruct (Nat.eqb_spec a b); [|simpl length in *; lia] end.
      apply wp_ret. apply HEND. now right. }
    match goal with |- context[if ?a =? ?b then _ else _] => destruct (Nat.eqb_spec a b); [simpl length in *; lia|] end.
    destruct (Nat.eqb_spec (length k) key_count). { apply wp_ret. apply HEND. now left. }
    apply wp_bind. reshape ((pre ++ map Val (s1 ++ k ++ s2)) ++ Val x :: map Val rem ++ post). apply wp_get_at. { lens. }
    apply wp_bind. reshape ((pre ++ map Val s1) ++ map Val k ++ (map Val (s2 ++ x :: rem) ++ post)). apply lower_bound_n_wp; auto. { lens. }
    intros ku kv [Ek HP]. destruct HP as [HPu HPv]. { apply (mono_lt lt HW k x). now apply strict_sorted. }
    replace (length pre + length s1 + length ku - (length pre + length s1)) with (length ku) by lia.
    assert (length k = length ku + length kv) as Lk by (rewrite Ek, app_length; auto).
    rewrite Ek in HS. apply strict_app in HS as (HSu & HSv & _).
    assert (forall y, In y kv -> lt y x = false) as HPv' by (intros; now apply HPv).
    apply wp_bind.
    match goal with |- wp _ ?KK _ => assert ((forall y, In y kv -> lt x y = true) -> KK true (pre ++ map Val (s1 ++ k ++ s2 ++ x :: rem) ++ post)) as HNEW end.
    { intros HGT. cbv beta iota. apply wp_bind. unfold rotate_ra. reshape ((pre ++ map Val s1) ++ map Val (k ++ s2) ++ (map Val (x :: rem) ++ post)).
      apply rotate_wp; [lens|lia|lia|]. apply wp_bind. rewrite Ek.
      reshape ((pre ++ map Val (s1 ++ s2 ++ ku)) ++ map Val (kv ++ [x]) ++ (map Val rem ++ post)).
      apply rotate_wp; [lens|lens|lens|]. apply wp_ret. split; [|rewrite <- Ek; simpl length in *; lia].
      exists (s1 ++ s2), (ku ++ x :: kv), [], rem. cj.
      - solve_app.
      - apply strict_join; auto. { constructor; auto. } intros a b Ha [<-|Hb]; [now apply HPu|]. eapply (swo_trans _ HW); [now apply HPu|]. auto.
      - eapply same_trans; [exact HSM|]. rewrite Ek. 
        replace ((ku ++ kv) ++ s1 ++ s2 ++ x :: rem) with (ku ++ ((kv ++ s1 ++ s2) ++ [x]) ++ rem) by solve_app.
        replace ((ku ++ x :: kv) ++ (s1 ++ s2) ++ [] ++ rem) with (ku ++ (x :: kv ++ s1 ++ s2) ++ rem) by solve_app.
        apply same_app; [apply same_refl|]. apply same_app; [|apply same_refl]. apply same_move.
        assert (forall y, In y k -> lt x y = true \/ lt y x = true) as HD. { intros y Hy. rewrite Ek in Hy. apply in_app_iff in Hy as [Hy|Hy]; auto. right. now apply HPu. }
        intros y Hy. apply in_app_iff in Hy as [Hy|Hy]; auto. destruct (HC y Hy) as (z & Hz & E1 & E2).
        destruct (HD z Hz) as [E|E]; [left; eapply lt_le_trans; eauto; exact E2|right; eapply le_lt_trans; eauto; exact E1].
      - rewrite !app_length. simpl length in *. lia.
      - intros z Hz. rewrite app_nil_r in Hz. destruct (HC z Hz) as (y & Hy & E). exists y. split; auto. rewrite Ek in Hy. apply in_app_iff in Hy. apply in_app_iff. simpl. tauto.
      - rewrite !app_length. lia.
      - rewrite !app_length. simpl. lia.
      - rewrite !app_length. simpl. lia.
      - rewrite app_length. simpl. lia.
      - rewrite app_length. simpl. lia.
      - eapply sub_trans; [exact HSUB|]. rewrite <- app_assoc. apply ProbesB.subseq_app; [apply ProbesB.subseq_refl|]. apply ProbesB.subseq_app; [apply ProbesB.subseq_refl|]. constructor. apply ProbesB.subseq_refl. }
    destruct kv as [|v kv].
    + simpl in Lk. destruct (Nat.eqb_spec (length ku) (length k)); [|lia]. apply wp_ret.
      reshape (pre ++ map Val (s1 ++ k ++ s2 ++ x :: rem) ++ post). apply HNEW. intros y [].
    + simpl in Lk. destruct (Nat.eqb_spec (length ku) (length k)); [lia|]. apply wp_bind.
      eapply wp_compare_at with (x := x) (y := v).
      { replace (_ ++ _) with ((pre ++ map Val (s1 ++ k ++ s2)) ++ Val x :: map Val rem ++ post) by solve_app. rewrite nth_error_app2; [|lens]. replace (_ - _) with 0 by lens. auto. }
      { replace (_ ++ _) with ((pre ++ map Val (s1 ++ ku)) ++ Val v :: map Val (kv ++ s2 ++ x :: rem) ++ post) by (rewrite Ek; solve_app). rewrite nth_error_app2; [|lens]. replace (_ - _) with 0 by lens. auto. }
      apply wp_ret. replace (compare comp proj x v =? 0)%Z with (negb (lt x v)).
      2:{ pose proof (HPv' v ltac:(now left)) as E. unfold compare. change (comp (proj x) (proj v)) with (lt x v). change (comp (proj v) (proj x)) with (lt v x). rewrite E. destruct (lt x v); auto. }
      rewrite negb_involutive. reshape (pre ++ map Val (s1 ++ k ++ s2 ++ x :: rem) ++ post).
      destruct (lt x v) eqn:E.
      * apply HNEW. intros y [<-|Hy]; auto. inversion HSv; subst. eapply (swo_trans _ HW); [exact E|]. auto.
      * apply wp_ret. split; [|simpl length in *; lia]. exists s1, k, (s2 ++ [x]), rem. cj; auto.
        -- solve_app.
        -- rewrite Ek. apply strict_join; auto. rewrite Ek in *. intros a b Ha Hb.
           destruct Hb as [<-|Hb].
           ++ eapply lt_le_trans; [exact HW|now apply HPu|]. red. apply HPv'. now left.
           ++ eapply lt_le_trans; [exact HW|now apply HPu|]. red. apply HPv'. now right.
        -- replace (k ++ s1 ++ (s2 ++ [x]) ++ rem) with (k ++ s1 ++ s2 ++ x :: rem) by solve_app. auto.
        -- rewrite app_length. simpl length in *. lia.
        -- intros z Hz. rewrite app_assoc in Hz. apply in_app_iff in Hz as [Hz|[<-|[]]]; auto. exists v. cj; auto. rewrite Ek. apply in_app_iff. right. now left. apply HPv'. now left.
        -- rewrite app_length. simpl. lia.
        -- lia.
        -- lia.
        -- now rewrite <- app_assoc.
Qed.

(** There are as many keys as elements that increase. *)
Lemma keys_four : forall k xs a b c d, (forall z, In z xs -> exists y, In y k /\ lt y z = false /\ lt z y = false) ->
  In a xs -> In b xs -> In c xs -> In d xs -> lt a b = true -> lt b c = true -> lt c d = true -> 4 <= length k.
Proof.
  intros k xs a b c d HC Ha Hb Hc Hd H1 H2 H3. destruct (HC a Ha) as (ya & Ia & A1 & A2). destruct (HC b Hb) as (yb & Ib & B1 & B2). destruct (HC c Hc) as (yc & Ic & C1 & C2). destruct (HC d Hd) as (yd & Id & D1 & D2).
  assert (forall x y y1 y2, lt x y = true -> lt x y1 = false -> lt y2 y = false -> lt y1 y2 = true) as HT.
  { intros x y y1 y2 E E1 E2. apply (le_lt_trans lt HW) with x; [exact E1|]. apply (lt_le_trans lt HW) with y; [exact E|exact E2]. }
  assert (lt ya yb = true) as E1 by (apply (HT a b); auto). assert (lt yb yc = true) as E2 by (apply (HT b c); auto). assert (lt yc yd = true) as E3 by (apply (HT c d); auto).
  pose proof (swo_trans _ HW _ _ _ E1 E2) as E4. pose proof (swo_trans _ HW _ _ _ E2 E3) as E5. pose proof (swo_trans _ HW _ _ _ E4 E3) as E6.
  assert (forall u v, lt u v = true -> u <> v) as HN. { intros u v E ->. rewrite (swo_irrefl _ HW) in E. discriminate. }
  change 4 with (length [ya; yb; yc; yd]). apply NoDup_incl_length.
  - repeat constructor; simpl; intros H; repeat (destruct H as [H|H]; [symmetry in H; revert H; apply HN; auto|]); auto.
  - intros y [<-|[<-|[<-|[<-|[]]]]]; auto.
Qed.

(** The sort with rotations. *)
Lemma lazy_pairs_wp : forall xs pre post first last (Q : unit -> mem A -> Prop), first = length pre -> last = first + length xs ->
  (forall out, sb 2 xs out -> Q tt (pre ++ map Val out ++ post)) ->
  wp (lazy_pairs comp proj first last) Q (pre ++ map Val xs ++ post).
Proof.
  intros xs pre post first last Q -> -> HQ. unfold lazy_pairs. replace (length pre + length xs - length pre) with (length xs) by lia.
  set (e := if length xs mod 2 =? 0 then length pre + length xs else length pre + length xs - 1).
  assert (exists k, e = length pre + 2 * k /\ 2 * k <= length xs < 2 * k + 2) as (k & Ee & Hk).
  { exists (length xs / 2). pose proof (Nat.div_mod (length xs) 2 ltac:(lia)). pose proof (Nat.mod_upper_bound (length xs) 2 ltac:(lia)). unfold e.
    destruct (Nat.eqb_spec (length xs mod 2) 0); lia. }
  clearbody e.
  apply wp_loop' with
    (I := fun it m => exists j done o, m = pre ++ map Val done ++ map Val o ++ post /\ (forall out, sb 2 o out -> sb 2 xs (done ++ out)) /\ it = length pre + length done /\
       length done + length o = length xs /\ length done = 2 * j /\ j <= k)
    (mu := fun it => length pre + length xs - it).
  - exists 0, [], xs. cj; auto; simpl; lia.
  - lia.
  - intros it m (j & done & o & -> & HOUT & -> & HL & Hj & Hjk). destruct (Nat.eqb_spec (length pre + length done) e) as [E|E].
    + apply wp_ret. rewrite <- (app_nil_r o). assert (o = ssort o) as Eo. { destruct o as [|x [|y o]]; auto. simpl in HL. lia. }
      replace (pre ++ map Val done ++ map Val (o ++ []) ++ post) with (pre ++ map Val (done ++ o) ++ post) by solve_app. apply HQ. apply HOUT. rewrite Eo at 2. apply sb_last. lia.
    + destruct o as [|x [|y o]]; try (simpl in HL; lia). simpl in HL.
      apply wp_bind. reshape ((pre ++ map Val done) ++ Val x :: [] ++ Val y :: (map Val o ++ post)). eapply wp_compare_2; [lens|lens|].
      rewrite compare_pos' by auto. apply wp_bind.
      match goal with |- wp _ ?KK _ => assert (KK tt (pre ++ map Val (done ++ ssort [x; y]) ++ map Val o ++ post)) as HK end.
      { apply wp_ret. assert (length (ssort [x; y]) = 2) as L2 by now rewrite ssort_length.
        split; [|lia]. exists (S j), (done ++ ssort [x; y]), o. cj; auto; try (rewrite app_length; lia); try lia.
        intros out Ho. rewrite <- app_assoc. apply HOUT. apply (sb_full comp proj 2 [x; y]); auto. }
      rewrite ssort_two in HK. destruct (lt y x).
      * eapply (wp_swap_at (pre ++ map Val done) []); [lens|lens|].
        reshape (pre ++ map Val (done ++ [y; x]) ++ map Val o ++ post). exact HK.
      * apply wp_ret. reshape (pre ++ map Val (done ++ [x; y]) ++ map Val o ++ post). exact HK.
Qed.

Lemma lazy_pass_wp : forall h xs cur pre post first last (Q : unit -> mem A -> Prop), 0 < h -> sb h xs cur -> first = length pre -> last = first + length xs -> (Z.of_nat (length xs) < 2 ^ 31)%Z \/ (Z.of_nat (2 * h) <= 2 ^ 31)%Z ->
  (forall out, sb (2 * h) xs out -> Q tt (pre ++ map Val out ++ post)) ->
  wp (lazy_pass comp proj triv h first last) Q (pre ++ map Val cur ++ post).
Proof.
  intros h xs cur pre post first last Q Hh HSB -> -> HZ HQ. unfold lazy_pass. apply wp_bind.
  apply wp_loop' with
    (I := fun p0 m => exists done o c, m = pre ++ map Val done ++ map Val c ++ post /\ sb h o c /\ (forall out, sb (2 * h) o out -> sb (2 * h) xs (done ++ out)) /\
        p0 = length pre + length done /\ length done + length o = length xs)
    (mu := fun p0 => length pre + length xs - p0).
  - exists [], xs, cur. cj; auto.
  - lia.
  - intros p0 m (done & o & c & -> & HSO & HOUT & -> & HLN).
    destruct (Nat.leb_spec (length pre + length done + 2 * h) (length pre + length xs)) as [H|H].
    + destruct (sb_first comp proj h o c HSO) as (l1 & o1 & c1 & -> & -> & L1 & HS1); [lia|]. rewrite app_length in HLN.
      destruct (sb_first comp proj h o1 c1 HS1) as (l2 & o2 & c2 & -> & -> & L2 & HS2); [lia|]. rewrite app_length in HLN.
      apply wp_bind. reshape ((pre ++ map Val done) ++ map Val (ssort l1) ++ map Val (ssort l2) ++ (map Val c2 ++ post)).
      eapply merge_without_buffer_wp; [exact HW|now apply ssort_sorted|now apply ssort_sorted| | | |]; rewrite ?app_length, ?map_length, ?ssort_length; try lia.
      apply wp_ret. split; [|lia]. rewrite merge_ssort by auto.
      exists (done ++ ssort (l1 ++ l2)), o2, c2. cj; auto.
      * solve_app.
      * intros out Ho. rewrite <- app_assoc. apply HOUT. rewrite app_assoc. apply sb_full; auto. rewrite app_length. lia.
      * rewrite app_length, ssort_length, app_length. lia.
      * rewrite app_length, ssort_length, app_length. lia.
    + apply wp_ret. replace (length pre + length xs - (length pre + length done)) with (length o) by lia. rewrite to_int_small by (destruct HZ; lia).
      destruct (Z.ltb_spec (Z.of_nat h) (Z.of_nat (length o))) as [H1|H1].
      * destruct (sb_first comp proj h o c HSO) as (l1 & o1 & c1 & -> & -> & L1 & HS1); [lia|]. rewrite app_length in *.
        rewrite (sb_short comp proj h o1 c1) by (auto; lia).
        reshape ((pre ++ map Val done) ++ map Val (ssort l1) ++ map Val (ssort o1) ++ post).
        eapply merge_without_buffer_wp; [exact HW|now apply ssort_sorted|now apply ssort_sorted| | | |]; rewrite ?app_length, ?map_length, ?ssort_length; try lia.
        rewrite merge_ssort by auto.
        replace ((pre ++ map Val done) ++ map Val (ssort (l1 ++ o1)) ++ post) with (pre ++ map Val (done ++ ssort (l1 ++ o1)) ++ post) by solve_app.
        apply HQ; auto. apply HOUT. apply sb_last. rewrite app_length. lia.
      * rewrite (sb_short comp proj h o c) by (auto; lia). apply wp_ret.
        replace (pre ++ map Val done ++ map Val (ssort o) ++ post) with (pre ++ map Val (done ++ ssort o) ++ post) by solve_app.
        apply HQ. apply HOUT. apply sb_last. lia.
Qed.

Lemma lazy_stable_sort_wp : forall xs pre post first last (Q : unit -> mem A -> Prop), first = length pre -> last = first + length xs -> (Z.of_nat (length xs) < 2 ^ 31)%Z ->
  Q tt (pre ++ map Val (ssort xs) ++ post) -> wp (lazy_stable_sort comp proj triv first last) Q (pre ++ map Val xs ++ post).
Proof.
  intros xs pre post first last Q -> -> HZ HQ. unfold lazy_stable_sort. apply wp_bind. apply lazy_pairs_wp; auto. intros out HO.
  replace (length pre + length xs - length pre) with (length xs) by lia.
  apply wp_loop' with (I := fun h m => exists c, m = pre ++ map Val c ++ post /\ sb h xs c /\ 0 < h) (mu := fun h => length xs - h).
  - exists out. cj; auto. 
  - lia.
  - intros h m (c & -> & HS & Hh). destruct (Nat.ltb_spec h (length xs)).
    + apply wp_bind. eapply lazy_pass_wp; [exact Hh|exact HS|auto|auto|auto|]. intros out2 HO2. apply wp_ret. split; [|lia]. exists out2. rewrite (Nat.mul_comm h 2). cj; auto. lia.
    + apply wp_ret. rewrite (sb_short comp proj h xs c) by auto. exact HQ.
Qed.

(** With more than 2^31 elements, what is left after the last pass does not fit in an int: the last merge is skipped. *)
Lemma lazy_pass_last : forall m first last h, Z.of_nat h = (2 ^ 31)%Z -> (2 ^ 31 <= Z.of_nat (last - first) < 2 ^ 32)%Z -> lazy_pass comp proj triv h first last m = Ok tt m.
Proof.
  intros m first last h Hh HZ. unfold lazy_pass, bind at 1.
  match goal with |- context[loop (S ?n) ?b ?s] => change (loop (S n) b s) with (bind (b s) (fun r => match r with inl s' => loop n b s' | inr v => ret v end)) end. cbv beta. unfold bind.
  destruct (Nat.leb_spec (first + 2 * h) last); [lia|]. cbv beta iota delta [ret].
  assert (to_int (last - first) = Z.of_nat (last - first) - 2 ^ 32)%Z as E.
  { unfold to_int. replace (Z.of_nat (last - first) + 2 ^ 31)%Z with (Z.of_nat (last - first) - 2 ^ 31 + 1 * 2 ^ 32)%Z by lia. rewrite Z.mod_add by lia. rewrite Z.mod_small by lia. lia. }
  rewrite E. destruct (Z.ltb_spec (Z.of_nat h) (Z.of_nat (last - first) - 2 ^ 32)); [lia|]. reflexivity.
Qed.

Lemma lazy_stable_sort_large_wp : forall l r pre post first last (Q : unit -> mem A -> Prop), first = length pre -> last = first + length (l ++ r) -> (Z.of_nat (length l) = 2 ^ 31)%Z -> (0 < Z.of_nat (length r) < 2 ^ 31)%Z ->
  Q tt (pre ++ map Val (ssort l ++ ssort r) ++ post) -> wp (lazy_stable_sort comp proj triv first last) Q (pre ++ map Val (l ++ r) ++ post).
Proof.
  intros l r pre post first last Q -> -> HL HR HQ. set (xs := l ++ r) in *. assert (length xs = length l + length r) as LX by apply app_length. unfold lazy_stable_sort. apply wp_bind. apply lazy_pairs_wp; auto. intros out HO.
  replace (length pre + length xs - length pre) with (length xs) by lia.
  apply wp_loop' with (I := fun h m => exists c, m = pre ++ map Val c ++ post /\ (exists j, (0 <= j)%Z /\ Z.of_nat h = (2 ^ j)%Z) /\ 0 < h /\ ((Z.of_nat h <= 2 ^ 31)%Z /\ sb h xs c \/ length xs <= h /\ c = ssort l ++ ssort r)) (mu := fun h => length xs - h).
  - exists out. cj; auto. { exists 1%Z. split; reflexivity || lia. } left. split; [lia|auto].
  - lia.
  - intros h m (c & -> & (j & Hj & Ej) & Hh & HS). destruct (Nat.ltb_spec h (length xs)).
    + destruct HS as [[HH HS]|[HH _]]; [|lia]. apply wp_bind.
      assert (j <= 31)%Z as Hj31. { apply (Z.pow_le_mono_r_iff 2); lia. }
      assert (exists i, (0 <= i)%Z /\ Z.of_nat (h * 2) = (2 ^ i)%Z) as HI. { exists (Z.succ j). split; [lia|]. rewrite Z.pow_succ_r by auto. lia. }
      destruct (Z.eq_dec j 31) as [->|NE].
      * unfold wp at 1. rewrite lazy_pass_last by lia. apply wp_ret. split; [|lia]. exists c. cj; auto; [lia|]. right. split; [lia|].
        destruct (sb_first comp proj h xs c HS) as (l1 & o1 & c1 & EX & -> & L1 & HS1); [lia|].
        assert (l1 = l /\ o1 = r) as [-> ->]. { unfold xs in EX. revert EX. assert (length l = length l1) as EL by lia. clear - EL. revert l1 EL. induction l as [|x l IH]; intros [|y l1] EL E; try discriminate; auto. injection E as -> E. injection EL as EL. destruct (IH l1 EL E) as [-> ->]. auto. }
        f_equal. apply (sb_short comp proj h); auto. lia.
      * assert (2 ^ Z.succ j <= 2 ^ 31)%Z as HP by (apply Z.pow_le_mono_r; lia). rewrite Z.pow_succ_r in HP by auto.
        eapply lazy_pass_wp; [exact Hh|exact HS|auto|auto|right; lia|]. intros out2 HO2. apply wp_ret. split; [|lia]. exists out2. rewrite (Nat.mul_comm h 2) in *. cj; auto; [lia|]. left. split; [lia|auto].
    + destruct HS as [[HH _]|[_ ->]]; [lia|]. apply wp_ret. exact HQ.
Qed.
End Keys.
