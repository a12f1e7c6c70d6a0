(** [range_sort] of spinsort. *)
From Coq Require Import List Arith Lia Permutation Bool.
From Verif Require Import Spec.Order Lang.Mem Spec.Sorts Proofs.Wp Proofs.OrderLib Model.Rotate Model.Indirect Proofs.Indirect Proofs.Search Proofs.Regions Proofs.Stable
  Model.Insertion Model.Select Proofs.Select Model.Merge Model.Spin Proofs.SpinMerge Proofs.SpinHalf Proofs.SpinInsert.
Import ListNotations.
Local Arguments nth_error : simpl never.
Local Arguments upd : simpl never.
Local Arguments Nat.leb : simpl never.
Local Arguments Nat.ltb : simpl never.
Local Arguments Nat.eqb : simpl never.
Local Arguments Nat.div : simpl never.
Local Arguments Nat.sub : simpl never.

Section Spin.
Context {A T : Type} (comp : T -> T -> bool) (proj : A -> T).
Local Notation lt := (by_proj comp proj).
Implicit Types (m : mem A).
Hypothesis HC : strict_weak_order comp.
Let HW : strict_weak_order lt := swo_by_proj _ _ comp proj HC.

Lemma lives_keep : forall (P : nat -> Prop) m m' x n k, lives m x n -> only P m m' -> lives m' x k -> (forall i, within x n i -> ~ within x k i -> ~ P i) -> lives m' x n.
Proof.
  intros P m m' x n k HL HO HK HP. eapply lives_change; [exact HL|apply HO|]. intros i Hi Hl.
  destruct (Nat.lt_ge_cases i (x + k)); [eapply lives_at; [exact HK|unfold within in Hi; lia]|]. eapply live_only; eauto. apply HP; auto. unfold within. lia.
Qed.

Lemma insert_partial_region : forall l1 l2 m first mid last x ex (Q : unit -> mem A -> Prop), sorted lt l1 -> sorted lt l2 -> seg m first l1 -> seg m mid l2 ->
  mid = first + length l1 -> last = mid + length l2 -> length l2 <= ex - x -> lives m x (length l2) -> apart first (length l1 + length l2) x (length l2) ->
  (forall m', seg m' first (ssort lt (l1 ++ l2)) -> lives m' x (length l2) -> only (fun i => within first (length l1 + length l2) i \/ within x (length l2) i) m m' -> Q tt m') ->
  wp (insert_partial_sort comp proj first mid last (x, ex)) Q m.
Proof.
  intros l1 l2 m first mid last x ex Q O1 O2 S1 S2 -> -> HB HL HA HQ. unfold insert_partial_sort. cbn [fst snd].
  apply wp_bind, wp_assert. { apply Nat.leb_le. lia. }
  rewrite <- (merge_sorted_eq lt HW) in HQ by auto.
  destruct (Nat.eqb_spec (first + length l1) (first + length l1 + length l2)) as [E|E]; [|destruct (Nat.eqb_spec first (first + length l1)) as [E'|E']]; cbn [orb].
  - apply wp_ret. destruct l2; [|simpl in E; lia]. rewrite merge_nil_r in HQ. apply HQ; auto. apply only_refl.
  - apply wp_ret. destruct l1; [|simpl in E'; lia]. rewrite merge_nil_l in HQ. apply HQ; auto. { now rewrite Nat.add_0_r in S2. } apply only_refl.
  - apply wp_bind. eapply move_range_lives; [exact S2|auto|exact HL|unfold apart in *; lia|]. intros m1 S3 L3 L4 O3.
    replace (first + length l1 + length l2 - (first + length l1)) with (length l2) by lia.
    assert (S1' : seg m1 first l1) by (eapply seg_only; [exact O3| |exact S1]; win).
    apply wp_bind. eapply insert_positions_wp; [exact HC|exact O1|exact O2|exact S1'|exact S3|auto|auto|]. intros viter V1 V2 V3.
    eapply insert_moves_wp; [exact HC|exact O2|exact S1'|exact S3|auto|auto|apply lives_app; [now apply seg_lives|exact L3]|exact HA|exact V1|exact V2|exact V3|].
    intros m2 S5 L5 O5. apply HQ; auto. eapply only_trans; [eapply only_weaken; [exact O3|]|exact O5]. win.
Qed.

(** [range_sort]: the elements are in the first range at the odd levels, in the second one at the even levels; they end in the second one. *)
Definition RS (rs : nat * nat -> nat * nat -> nat -> M A unit) (N : nat) : Prop :=
  forall level xs m a ea b eb (Q : unit -> mem A -> Prop), let n := length xs in n + level < N -> 0 < level -> ea = a + n -> eb = b + n -> apart a n b n ->
  (if level_odd level then seg m a xs /\ lives m b n else seg m b xs /\ lives m a n) ->
  (forall m', seg m' b (ssort lt xs) -> lives m' a n -> only (fun i => within a n i \/ within b n i) m m' -> Q tt m') ->
  wp (rs (a, ea) (b, eb) level) Q m.

Lemma sort_range_region : forall rs N xs m d ed x ex (Q : unit -> mem A -> Prop), RS rs N -> let n := length xs in
  seg m d xs -> ed = d + n -> n <= ex - x -> lives m x n -> apart d n x n -> (n <= 32 \/ 2 * n < N) ->
  (forall m', seg m' d (ssort lt xs) -> lives m' x n -> only (fun i => within d n i \/ within x n i) m m' -> Q tt m') ->
  wp (sort_range_sort comp proj rs (d, ed) (x, ex)) Q m.
Proof.
  intros rs N xs m d ed x ex Q HR n HS -> HB HL HA HN HQ. unfold sort_range_sort. cbn [fst snd]. replace (d + n - d) with n by lia.
  destruct (Nat.leb_spec n 32) as [H|H].
  - eapply insertion_sort_region; eauto. intros m' S1 O1. apply HQ; auto.
    + eapply lives_only; [exact O1| |exact HL]. fold n. win.
    + eapply only_weaken; [exact O1|]. fold n. win.
  - apply wp_bind, wp_assert. { apply Nat.leb_le. lia. }
    assert (HD : 1 <= (n + 32 - 1) / 32 - 1 < n).
    { assert (2 <= (n + 32 - 1) / 32) by (apply Nat.div_le_lower_bound; lia). assert ((n + 32 - 1) / 32 <= n) by (apply Nat.div_le_upper_bound; lia). lia. }
    apply wp_bind, wp_assert. { apply Nat.ltb_lt. lia. }
    set (lv := Nat.log2 _ + 1). assert (HLV : 0 < lv <= n). { unfold lv. pose proof (Nat.log2_lt_lin ((n + 32 - 1) / 32 - 1)). lia. }
    clearbody lv.
    destruct (level_odd lv) eqn:E; cbn [negb].
    + apply wp_bind. eapply HR with (xs := xs); fold n; auto; try lia. { rewrite E. auto. }
      intros m1 S1 L1 O1. apply wp_bind, wp_assert. { apply Nat.leb_le. lia. }
      apply wp_bind. eapply move_range_lives; [exact S1|now rewrite ssort_length|rewrite ssort_length; exact L1|rewrite ssort_length; unfold apart in *; lia|].
      rewrite ssort_length. fold n. intros m2 S2 L2 L2' O2. apply wp_ret. apply HQ; auto.
      eapply only_trans; [exact O1|]. eapply only_weaken; [exact O2|]. win.
    + eapply HR with (xs := xs); fold n; auto; try lia. { unfold apart in *. lia. } { rewrite E. auto. }
      intros m1 S1 L1 O1. apply HQ; auto. eapply only_weaken; [exact O1|]. win.
Qed.

Lemma ssort_rev_prefix : forall p s, steps (fun x y => lt y x = true) p -> ssort lt (rev p ++ s) = ssort lt (p ++ s).
Proof.
  intros p s HS. apply ssort_same_eq; auto. apply same_app; [|apply same_refl]. apply same_sym.
  refine (proj2 (st_rev lt True (fun _ => HW) p _) I).
  intros _. clear s. induction p as [|x p IH]. { intros i j u v _ Hu. apply nth_lt in Hu. simpl in Hu. lia. }
  assert (HS' : steps (fun x y => lt y x = true) p). { intros i u v Hu Hv. apply (HS (S i)); auto. }
  apply sorted_cons. split; auto. unfold OrderLib.le.
  clear IH. revert x HS HS'. induction p as [|y p IH]; intros x HS HS' z Hz; [destruct Hz|].
  assert (Hyx : lt y x = true) by (apply (HS 0); auto).
  apply negb_false_iff. destruct Hz as [<-|Hz]; auto. 
  apply (le_lt_trans lt HW) with y; auto. apply lt_le; auto. apply negb_false_iff. apply IH; auto. intros i u v Hu Hv. apply (HS' (S i)); auto.
Qed.

Lemma steps_sorted : forall p, steps (fun x y => comp (proj y) (proj x) = false) p -> sorted lt p.
Proof.
  induction p as [|x p IH]; intros HS. { intros i j u v _ Hu. apply nth_lt in Hu. simpl in Hu. lia. }
  assert (HS' : sorted lt p). { apply IH. intros i u v Hu Hv. apply (HS (S i)); auto. }
  apply sorted_cons. split; auto. intros z Hz. destruct p as [|y p]; [destruct Hz|].
  assert (Hyx : lt y x = false) by (apply (HS 0); auto). destruct Hz as [<-|Hz]; auto.
  apply (le_trans lt HW) with y; auto. apply sorted_cons in HS' as [HS' _]. apply HS'; auto.
Qed.

Lemma tail_region : forall rs N p s m d it ed x ex (Q : bool -> mem A -> Prop), RS rs N -> let n := length p + length s in
  sorted lt p -> seg m d p -> seg m it s -> it = d + length p -> ed = d + n -> n <= ex - x -> lives m x n -> apart d n x n -> (length s <= 32 \/ 2 * length s < N) ->
  (forall m', seg m' d (ssort lt (p ++ s)) -> lives m' x n -> only (fun i => within d n i \/ within x n i) m m' -> Q true m') ->
  wp (sort_range_sort comp proj rs (it, ed) (x, ex) ;; insert_partial_sort comp proj d it ed (x, ex) ;; ret true) Q m.
Proof.
  intros rs N p s m d it ed x ex Q HR n OP SP SS -> -> HB HL HA HN HQ.
  apply wp_bind. eapply sort_range_region; [exact HR|exact SS|unfold n; lia|lia|eapply lives_sub; [exact HL|lia|lia]|unfold apart in *; lia|exact HN|].
  intros m1 S1 L1 O1. assert (L1' : lives m1 x n). { eapply lives_keep; [exact HL|exact O1|exact L1|]. unfold apart, within in *. lia. }
  apply wp_bind. eapply insert_partial_region; [exact OP|apply (ssort_sorted lt HW s)|eapply seg_only; [exact O1| |exact SP]; unfold apart in *; unfold within; lia|exact S1|auto|..]; rewrite ?ssort_length; try (unfold n; lia).
  { exact L1. } { unfold apart in *. lia. }
  intros m2 S2 L2 O2. apply wp_ret. apply HQ.
  - rewrite <- (merge_ssort lt HW), (ssort_id lt HW p OP). rewrite <- (merge_sorted_eq lt HW) in S2; auto. apply ssort_sorted; auto.
  - eapply lives_keep; [exact L1'|exact O2|exact L2|]. unfold apart, within in *. lia.
  - eapply only_trans; (eapply only_weaken; [eassumption|]); unfold within; intros; lia.
Qed.

Lemma check_stable_region : forall rs N xs m d ed x ex (Q : bool -> mem A -> Prop), RS rs N -> let n := length xs in
  n < N -> seg m d xs -> ed = d + n -> n <= ex - x -> lives m x n -> apart d n x n ->
  (forall m', seg m' d (ssort lt xs) -> lives m' x n -> only (fun i => within d n i \/ within x n i) m m' -> Q true m') -> Q false m ->
  wp (check_stable_sort comp proj rs (d, ed) (x, ex)) Q m.
Proof.
  intros rs N xs m d ed x ex Q HR n HN HS -> HB HL HA HQ HF. unfold check_stable_sort. cbn [fst snd]. replace (d + n - d) with n by lia.
  destruct (Nat.ltb_spec n 32) as [H|H].
  { apply wp_bind. eapply insertion_sort_region; eauto. intros m' S1 O1. apply wp_ret. apply HQ; auto.
    + eapply lives_only; [exact O1| |exact HL]. fold n. win.
    + eapply only_weaken; [exact O1|]. fold n. win. }
  assert (HNE : xs <> []). { intros E. unfold n in H. rewrite E in H. simpl in H. lia. }
  set (mi := if n / 8 <? 33 then 32 else n / 8).
  assert (HMI : forall k, k < mi -> k <= 32 \/ 2 * k < N).
  { intros k. unfold mi. destruct (Nat.ltb_spec (n / 8) 33); [lia|]. assert (8 * (n / 8) <= n) by (apply Nat.mul_div_le; lia). lia. }
  apply wp_bind. eapply is_sorted_until_wp; [exact HS|auto|auto|]. intros p s E HP HSt.
  assert (OP := steps_sorted p HSt). assert (En : n = length p + length s) by (unfold n; rewrite E, app_length; auto).
  destruct (Nat.eqb_spec (d + length p) (d + n)) as [E1|E1].
  { apply wp_ret. destruct s; [|simpl in En; lia]. rewrite app_nil_r in E. subst p. apply HQ; auto. { rewrite (ssort_id lt HW); auto. } apply only_refl. }
  destruct (Nat.ltb_spec (d + n - (d + length p)) mi) as [E2|E2].
  { assert (HS' := HS). rewrite E in HS'. apply seg_app in HS' as [S1 S2]. eapply tail_region; [exact HR|exact OP|exact S1|exact S2|auto|lia|lia| | | |].
    - now rewrite <- En. - now rewrite <- En. - apply HMI. lia. - rewrite <- En, <- E. auto. }
  destruct (negb (d + length p =? S d)). { apply wp_ret. auto. }
  clear dependent p. clear s. apply wp_bind. eapply is_sorted_until_wp; [exact HS|auto|auto|]. intros p s E HP HSt.
  assert (En : n = length p + length s) by (unfold n; rewrite E, app_length; auto).
  assert (HSt' : steps (fun x y => lt y x = true) p). { intros i u v Hu Hv. specialize (HSt i u v Hu Hv). now apply negb_false_iff in HSt. }
  destruct (Nat.leb_spec mi (d + n - (d + length p))) as [E2|E2]. { apply wp_ret. auto. }
  assert (HS' := HS). rewrite E in HS'. apply seg_app in HS' as [S1 S2].
  apply wp_bind. eapply (swap_ranges_reverse_wp comp proj); [exact S1|auto|f_equal; f_equal; lia|]. intros m1 S3 O3.
  assert (OR : sorted lt (rev p)).
  { apply steps_sorted. intros i u v Hu Hv.
    assert (S i < length p) by (apply nth_lt in Hv; now rewrite rev_length in Hv). rewrite BufMerge.nth_rev in Hu, Hv by lia.
    apply lt_le; auto. apply (HSt' (length p - S (S i))); auto. now replace (S (length p - S (S i))) with (length p - S i) by lia. }
  assert (L3 : lives m1 x n). { eapply lives_only; [exact O3| |exact HL]. unfold apart, within in *. lia. }
  destruct (Nat.eqb_spec (d + length p) (d + n)) as [E1|E1]; cbn [negb].
  - apply wp_ret. destruct s; [|simpl in En; lia]. rewrite app_nil_r in E. subst p. apply HQ; auto.
    + rewrite <- (app_nil_r xs), <- ssort_rev_prefix, app_nil_r by auto. now rewrite (ssort_id lt HW).
    + eapply only_weaken; [exact O3|]. unfold within. lia.
  - eapply tail_region; [exact HR|exact OR|exact S3|eapply seg_only; [exact O3| |exact S2]; unfold within; lia|rewrite rev_length; auto|rewrite rev_length; lia|rewrite rev_length; lia|rewrite rev_length, <- En; auto|rewrite rev_length, <- En; auto|apply HMI; lia|].
    rewrite ssort_rev_prefix, <- E, rev_length, <- En by auto. intros m2 S4 L4 O4. apply HQ; auto.
    eapply only_trans; [eapply only_weaken; [exact O3|]|exact O4]. unfold within. lia.
Qed.

Lemma range_sort_region : forall N, RS (range_sort comp proj N) N.
Proof.
  induction N as [|N IH]; intros level xs m a ea b eb Q n HF HLV -> -> HA HSt HQ; [lia|]. cbn [range_sort fst snd].
  replace (a + n - a) with n by lia. replace (b + n - b) with n by lia.
  apply wp_bind, wp_assert. { rewrite Nat.eqb_refl. destruct (Nat.eqb_spec level 0); [lia|auto]. }
  apply wp_bind. 
  assert (HREST : wp
    ((if level <? 2 then insertion_sort comp proj a (a + (n + 1) / 2) ;; insertion_sort comp proj (a + (n + 1) / 2) (a + n)
     else range_sort comp proj N (b, b + (n + 1) / 2) (a, a + (n + 1) / 2) (level - 1) ;;
          range_sort comp proj N (b + (n + 1) / 2, b + n) (a + (n + 1) / 2, a + n) (level - 1)) ;;
     (let* _ := boost_merge comp proj a (a + (n + 1) / 2) (a + (n + 1) / 2) (a + n) b in ret tt)) Q m).
  { set (h := (n + 1) / 2).
    assert (HH : h <= n /\ n <= 2 * h /\ 2 * h <= n + 1). { unfold h. pose proof (Nat.div_mod (n + 1) 2 ltac:(lia)). pose proof (Nat.mod_upper_bound (n + 1) 2 ltac:(lia)). lia. }
    clearbody h.
    rewrite <- (firstn_skipn h xs) in HSt.
    assert (E1 : length (firstn h xs) = h) by (rewrite firstn_length; fold n; lia). assert (E2 : length (skipn h xs) = n - h) by (rewrite skipn_length; fold n; lia).
    set (x1 := firstn h xs) in *. set (x2 := skipn h xs) in *.
    apply wp_bind. apply wp_mono with (Q := fun _ m' => seg m' a (ssort lt x1) /\ seg m' (a + h) (ssort lt x2) /\ lives m' b n /\ only (fun i => within a n i \/ within b n i) m m').
    - destruct (Nat.ltb_spec level 2) as [H|H].
      + assert (level = 1) by lia. subst level. cbn in HSt. destruct HSt as [HSt HL]. apply seg_app in HSt as [S1 S2]. rewrite E1 in S2.
        apply wp_bind. eapply insertion_sort_region; [exact HC|exact S1|now rewrite E1|]. intros m1 S3 O1. rewrite E1 in O1.
        eapply insertion_sort_region; [exact HC|eapply seg_only; [exact O1| |exact S2]; win|rewrite E2; lia|]. intros m2 S4 O2. rewrite E2 in O2. cj.
        * eapply seg_only; [exact O2| |exact S3]. rewrite ssort_length, E1. unfold within. lia.
        * exact S4.
        * eapply lives_only; [exact O2| |]. { unfold apart, within in *. lia. } eapply lives_only; [exact O1| |exact HL]. unfold apart, within in *. lia.
        * eapply only_trans; (eapply only_weaken; [eassumption|]); unfold within; intros; lia.
      + assert (EO : level_odd (level - 1) = negb (level_odd level)). { unfold level_odd. destruct level as [|l]; [lia|]. replace (S l - 1) with l by lia. rewrite Nat.odd_succ, <- Nat.negb_odd, negb_involutive. reflexivity. }
        assert (HLL : lives m a n /\ lives m b n).
        { assert (length (x1 ++ x2) = n) as EL by (rewrite app_length; lia). destruct (level_odd level); destruct HSt as [S1 L1]; apply seg_lives in S1; rewrite EL in S1; auto. }
        destruct HLL as [La Lb].
        apply wp_bind. eapply IH with (xs := x1); rewrite ?E1; auto; try lia. { unfold apart in *. lia. }
        { rewrite EO. destruct (level_odd level); cbn [negb]; destruct HSt as [HSt HL]; apply seg_app in HSt as [S1 S2]; (split; [exact S1|]); eapply lives_sub; [exact HL|lia|lia|exact HL|lia|lia]. }
        intros m1 S1 L1 O1.
        eapply IH with (xs := x2); rewrite ?E2; auto; try lia. { unfold apart in *. lia. }
        { rewrite EO. destruct (level_odd level); cbn [negb]; destruct HSt as [HSt HL]; apply seg_app in HSt as [S2 S3]; rewrite E1 in S3.
          - split; [eapply seg_only; [exact O1| |exact S3]|eapply lives_only; [exact O1| |eapply lives_sub; [exact HL|lia|lia]]]; rewrite ?E2; unfold apart, within in *; lia.
          - split; [eapply seg_only; [exact O1| |exact S3]|eapply lives_only; [exact O1| |eapply lives_sub; [exact HL|lia|lia]]]; rewrite ?E2; unfold apart, within in *; lia. }
        intros m2 S2 L2 O2. cj.
        * eapply seg_only; [exact O2| |exact S1]. rewrite ssort_length, E1. unfold apart, within in *; lia.
        * exact S2.
        * replace n with (h + (n - h)) at 1 by lia. apply lives_app; auto. eapply lives_only; [exact O2| |exact L1]. unfold apart, within in *; lia.
        * eapply only_trans; (eapply only_weaken; [eassumption|]); unfold within; intros; lia.
    - intros [] m1 (S1 & S2 & L1 & O1). apply wp_bind. eapply boost_merge_region; [exact HC|apply (ssort_sorted lt HW x1)|apply (ssort_sorted lt HW x2)|exact S1|exact S2|..];
        rewrite ?ssort_length, ?E1, ?E2; auto; try lia; try (unfold apart in *; lia).
      { replace (h + (n - h)) with n by lia. auto. }
      replace (h + (n - h)) with n by lia.
      intros p m2 S3 L2 L3 O2. apply wp_ret. apply HQ.
      + rewrite <- (merge_sorted_eq lt HW) in S3 by (apply ssort_sorted; auto). rewrite (merge_ssort lt HW) in S3. unfold x1, x2 in S3. now rewrite firstn_skipn in S3.
      + replace n with (h + (n - h)) by lia. apply lives_app; auto.
      + eapply only_trans; [exact O1|]. eapply only_weaken; [exact O2|]. unfold within. intros; lia. }
  destruct (Nat.ltb_spec 1024 n) as [H|H]; [|apply wp_ret; exact HREST].
  destruct (level_odd level); cbn [negb]; destruct HSt as [HS HL].
  - apply wp_bind. eapply check_stable_region with (xs := xs); [exact IH|fold n; lia|exact HS|auto|fold n; lia|exact HL|exact HA| |].
    + fold n. intros m1 S1 L1 O1. apply wp_bind. eapply move_range_lives; [exact S1|now rewrite ssort_length|rewrite ssort_length; auto|rewrite ssort_length; unfold apart in *; auto|].
      rewrite ssort_length. fold n. intros m2 S2 L2 L3 O2. apply wp_ret. apply wp_ret. apply HQ; auto. eapply only_trans; eauto.
    + apply wp_ret. exact HREST.
  - eapply check_stable_region with (xs := xs); [exact IH|fold n; lia|exact HS|auto|fold n; lia|exact HL|fold n; unfold apart in *; lia| |].
    + fold n. intros m1 S1 L1 O1. apply wp_ret. apply HQ; auto. eapply only_weaken; [exact O1|]. unfold within. intros; lia.
    + exact HREST.
Qed.
End Spin.
