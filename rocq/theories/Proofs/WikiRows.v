(** wiki_sort: pulling out the internal buffers, merging every pair of a level, putting the buffers back. *)
From Coq Require Import List Arith Lia Permutation Bool.
From Verif Require Import Spec.Order Lang.Mem Spec.Sorts Proofs.Wp Proofs.OrderLib Proofs.MergeLib Proofs.Search Model.Search Model.Insertion Proofs.HalfMerge Proofs.Regions
  Proofs.GrailMerge Proofs.GrailBlocks Proofs.SpinMerge Proofs.SpinHalf Model.Wiki Proofs.WikiFind Proofs.WikiMerge Proofs.WikiLevels Proofs.WikiBlocks Proofs.WikiPull Proofs.WikiSearch.
Import ListNotations.
Local Arguments nth_error : simpl never.
Local Arguments Nat.leb : simpl never.
Local Arguments Nat.ltb : simpl never.
Local Arguments Nat.eqb : simpl never.
Local Arguments Nat.mul : simpl never.
Local Arguments Nat.add : simpl never.
Local Arguments Nat.sub : simpl never.

Section Rows.
Context {A T : Type} (comp : T -> T -> bool) (proj : A -> T) (triv : bool).
Local Notation lt := (by_proj comp proj).
Local Notation same := (same_order_in_classes lt).
Implicit Types (m : mem A).
Hypothesis HC : strict_weak_order comp.
Let HW : strict_weak_order lt := swo_by_proj _ _ comp proj HC.
Variables (n d f k c : nat) (xj : nat -> list A).
Hypothesis Hd : 0 < d.
Hypothesis Hn : d <= n.
Hypothesis HD : c * (2 * k) = d.
Notation cs := (cs n d f k).
Hypothesis HX : forall j, j < 2 * c -> sorted lt (xj j) /\ cs (S j) = cs j + length (xj j).
Notation site := (site comp proj n d f k c xj).
Notation loc := (loc n d f k).
Notation unset := (unset f).

Lemma cs_le : forall i j, i <= j -> cs i <= cs j.
Proof. intros i j H. unfold WikiSearch.cs. pose proof (bd_mono n d Hd Hn k i j H). lia. Qed.
Lemma cs_lt : forall i j, i < j -> cs i < cs j.
Proof. exact (cs_strict n d f k c Hd Hn HD). Qed.
Lemma cs_last : cs (2 * c) = f + n.
Proof. unfold WikiSearch.cs. rewrite (bd_top n d Hd Hn k (2 * c)); lia. Qed.
Lemma cs_first : cs 0 = f.
Proof. unfold WikiSearch.cs. rewrite bd_0; auto. Qed.
Lemma cs_pair : forall i, i < c -> f <= cs (2 * i) /\ cs (2 * i) < cs (2 * i + 1) /\ cs (2 * i + 1) < cs (2 * i + 2) /\ cs (2 * i + 2) <= f + n.
Proof.
  intros i Hi. rewrite <- cs_last. cj; try (apply cs_lt; lia); try (apply cs_le; lia). rewrite <- cs_first at 1. apply cs_le. lia.
Qed.
Lemma cs_other : forall i j, i < j -> cs (2 * i + 2) <= cs (2 * j).
Proof. intros. apply cs_le. lia. Qed.
Lemma cs_inj : forall i j, cs (2 * i) = cs (2 * j) -> i = j.
Proof. intros i j H. destruct (Nat.lt_trichotomy i j) as [H1|[H1|H1]]; auto; apply (cs_lt (2 * i) (2 * j)) in H || (pose proof (cs_lt (2 * i) (2 * j)); pose proof (cs_lt (2 * j) (2 * i)); lia). Qed.

(** A pull that moved the values [w] to one end of the [i]th pair, and a pull that moved nothing. *)
Definition pulled (p : pull) (b : bool) (i : nat) (w : list A) (cut : nat) : Prop :=
  i < c /\ p_count p = length w /\ p_range p = (cs (2 * i), cs (2 * i + 2) - cut) /\ if b then p_from p < p_to p else p_to p < p_from p.
Definition idle (p : pull) : Prop := p_from p = p_to p \/ unset p.
Definition acts (p : pull) (b : bool) (i : nat) (w : list A) (cut : nat) : Prop := pulled p b i w cut \/ idle p /\ i = c /\ w = [].

Lemma pull_out_idle : forall p m (Q : pull -> mem A -> Prop), idle p -> (forall p', idle p' -> Q p' m) -> wp (pull_out comp proj triv p) Q m.
Proof.
  intros p m Q HI HQ. unfold pull_out.
  destruct (Nat.ltb_spec (p_to p) (p_from p)) as [H|H]; [|destruct (Nat.ltb_spec (p_from p) (p_to p)) as [H1|H1]].
  - destruct HI as [HI|[H1 H2]]; [lia|]. rewrite H1. apply wp_bind. unfold pull_left. apply wp_loop' with (I := fun '(x, y, z) m1 => m1 = m /\ x = 1) (mu := fun _ => 0); auto.
    intros [[x y] z] m1 [-> ->]. apply wp_ret. apply wp_ret. apply HQ. right. split; auto.
  - destruct HI as [HI|[H2 H3]]; [lia|]. rewrite H2. apply wp_bind. unfold pull_right. apply wp_loop' with (I := fun '(x, y, z) m1 => m1 = m /\ x = 1) (mu := fun _ => 0); auto.
    intros [[x y] z] m1 [-> ->]. apply wp_ret. apply wp_ret. apply HQ. right. split; auto.
  - apply wp_bind. apply wp_ret. apply wp_ret. apply HQ. left. simpl. lia.
Qed.

Definition mix (b : bool) (w rest : list A) : list A := if b then rest ++ w else w ++ rest.

Lemma pull_out_site : forall p b i N cut m (Q : pull -> mem A -> Prop), site p b i N cut -> 2 <= N -> seg m (cs (chk b i)) (xj (chk b i)) ->
  (forall p' w rest m', pulled p' b i w cut -> length w = N -> strict lt w -> sorted lt rest -> same (xj (chk b i)) (mix b w rest) -> seg m' (cs (chk b i)) (mix b w rest) ->
     only (within (cs (chk b i)) (length (xj (chk b i)))) m m' -> Q p' m') -> wp (pull_out comp proj triv p) Q m.
Proof.
  intros p b i N cut m Q (Hi & EC & _ & ER & HP) HN SM HQ. unfold pull_out. destruct b; simpl in *; destruct HP as [ET HP].
  - destruct HP as (r & a & s & EX & HG & HS & EF). destruct (HX (2 * i + 1)) as [OX EL]; [lia|]. replace (S (2 * i + 1)) with (2 * i + 2) in EL by lia.
    assert (length (xj (2 * i + 1)) = length r + S (length s)) as EL2 by (rewrite EX, app_length; reflexivity).
    replace (p_to p <? p_from p) with false by (symmetry; apply Nat.ltb_ge; lia). replace (p_from p <? p_to p) with true by (symmetry; apply Nat.ltb_lt; lia).
    rewrite EX in SM, OX. apply wp_bind. eapply (pull_right_wp comp proj triv HC (p_count p) r a s); [exact OX|rewrite EC; exact HG|exact HS|lia|exact SM|exact EF|rewrite ET, EL, EX; auto|].
    intros u rest from' m' U1 U2 U3 U4 U5 U6 U7. apply wp_ret. rewrite EX in HQ. eapply (HQ _ u rest); auto; [|congruence]. unfold pulled. simpl. cj; auto.
  - destruct HP as (q & a & r & EX & HG & HS & EF). destruct (HX (2 * i)) as [OX EL]; [lia|]. replace (S (2 * i)) with (2 * i + 1) in EL by lia.
    assert (length (xj (2 * i)) = length q + S (length r)) as EL2 by (rewrite EX, app_length; reflexivity). pose proof (fgroups_len comp proj _ _ HG).
    replace (p_to p <? p_from p) with true by (symmetry; apply Nat.ltb_lt; lia).
    rewrite EX in SM, OX. apply wp_bind. eapply (pull_left_wp comp proj triv HC (p_count p) q a r); [exact OX|rewrite EC; exact HG|exact HS|lia|exact SM|exact EF|rewrite ET; auto|].
    intros u rest from' m' U1 U2 U3 U4 U5 U6 U7. apply wp_ret. rewrite EX in HQ. eapply (HQ _ u rest); auto; [|congruence]. unfold pulled. simpl. cj; auto. rewrite ET. apply U7. lia.
Qed.

(** What is left of a pair. *)
Lemma remove_acts : forall p b i w cut i' RA RB, acts p b i w cut -> i' < c -> 0 < len RA -> 0 < len RB ->
  remove_buffer (cs (2 * i')) p RA RB =
    if i' =? i then if b then if len (start RB, end_ RB - length w) =? 0 then None else Some (RA, (start RB, end_ RB - length w))
                    else if len (start RA + length w, end_ RA) =? 0 then None else Some ((start RA + length w, end_ RA), RB)
    else Some (RA, RB).
Proof.
  intros p b i w cut i' [a1 a2] [b1 b2] [(Hi & EC & ER & HP)|(HI & -> & ->)] Hi' LA LB; unfold remove_buffer, start, end_ in *.
  - rewrite ER. simpl fst. simpl snd. destruct (Nat.eqb_spec i' i) as [->|H].
    + rewrite Nat.eqb_refl. rewrite EC. destruct b.
      * replace (p_to p <? p_from p) with false by (symmetry; apply Nat.ltb_ge; lia). apply Nat.ltb_lt in HP. rewrite HP. reflexivity.
      * apply Nat.ltb_lt in HP. rewrite HP. reflexivity.
    + replace (cs (2 * i') =? cs (2 * i)) with false; auto. symmetry. apply Nat.eqb_neq. intros E. apply H. now apply cs_inj.
  - replace (i' =? c) with false by (symmetry; apply Nat.eqb_neq; lia). destruct (_ =? _); auto. unfold len, start, end_ in *. simpl in *.
    destruct HI as [HI|[E1 E2]].
    + rewrite HI, Nat.ltb_irrefl. auto.
    + rewrite E1, Nat.add_0_r, Nat.sub_0_r. replace (a2 - a1 =? 0) with false by (symmetry; apply Nat.eqb_neq; lia). replace (b2 - b1 =? 0) with false by (symmetry; apply Nat.eqb_neq; lia).
      destruct (_ <? _); auto. destruct (_ <? _); auto.
Qed.

(** Putting a buffer back. *)
Lemma redistribute_wp : forall p b i w cut (Z : nat -> list A) M V m (Q : unit -> mem A -> Prop), acts p b i w cut -> (i < c -> Z i = if b then M ++ w else w ++ M ++ V) -> (i < c -> length V = cut) -> (b = true -> V = []) ->
  sorted lt M -> sorted lt w -> (forall i', i' < c -> seg m (cs (2 * i')) (Z i') /\ length (Z i') = cs (2 * i' + 2) - cs (2 * i')) ->
  (forall m', (forall i', i' < c -> seg m' (cs (2 * i')) (if i' =? i then if b then ssort lt (M ++ w) else ssort lt (w ++ M) ++ V else Z i')) -> only (within f n) m m' -> Q tt m') ->
  wp (redistribute comp proj triv p) Q m.
Proof.
  intros p b i w cut Z M V m Q [(Hi & EC & ER & HP)|(HI & -> & ->)] EZ EV HV OM OW SZ HQ; unfold redistribute.
  - specialize (EZ Hi). specialize (EV Hi). destruct (SZ i Hi) as [SI LI]. pose proof (cs_pair i Hi) as HCP.
    assert (forall m', only (within (cs (2 * i)) (length w + length M)) m m' -> length w + length M + cut = cs (2 * i + 2) - cs (2 * i) ->
      seg m' (cs (2 * i)) (if b then ssort lt (M ++ w) else ssort lt (w ++ M) ++ V) -> Q tt m') as HF.
    { intros m' HO HE HS. apply HQ.
      - intros i' Hi'. destruct (Nat.eqb_spec i' i) as [->|Hne]; auto. destruct (SZ i' Hi') as [SI' LI']. pose proof (cs_pair i' Hi') as HCP'.
        destruct (Nat.lt_trichotomy i' i) as [H1|[H1|H1]]; [pose proof (cs_other i' i H1)|lia|pose proof (cs_other i i' H1)]; keep HO SI'.
      - eapply only_weaken; [exact HO|]. win. }
    destruct b.
    + rewrite (HV eq_refl) in *. simpl in EV. rewrite EZ in LI. rewrite app_length in LI.
      replace (p_to p <? p_from p) with false by (symmetry; apply Nat.ltb_ge; lia). apply Nat.ltb_lt in HP. rewrite HP. rewrite EZ in SI.
      eapply (redistribute_left_wp comp proj triv HC w M); [auto|auto|exact SI|rewrite ER; f_equal; lia|auto|]. intros m' S1 O1. apply HF; auto; try lia. eapply only_weaken; [exact O1|]. win.
    + rewrite EZ in LI. rewrite !app_length in LI. apply Nat.ltb_lt in HP. rewrite HP. rewrite EZ, app_assoc in SI. apply seg_app in SI as [SI SV]. rewrite app_length in SV.
      eapply (redistribute_right_wp comp proj triv HC w M); [auto|auto|exact SI|rewrite ER; f_equal; lia|auto|]. intros m' S1 O1. apply HF; auto; try lia.
      apply seg_app. rewrite ssort_length, app_length. split; auto. keep O1 SV.
  - assert (Q tt m) as HF. { apply HQ; [|apply only_refl]. intros i' Hi'. replace (i' =? c) with false by (symmetry; apply Nat.eqb_neq; lia). now apply SZ. }
    destruct (Nat.ltb_spec (p_to p) (p_from p)) as [H|H]; [|destruct (Nat.ltb_spec (p_from p) (p_to p)) as [H1|H1]].
    + destruct HI as [HI|[E1 E2]]; [lia|]. unfold redistribute_right. rewrite E1, E2. unfold start, end_, len. simpl fst. simpl snd.
      apply wp_loop' with (I := fun '(x, y) m1 => m1 = m /\ fst x = snd x) (mu := fun _ => 0); auto. { simpl. split; auto; lia. } intros [[x1 x2] y] m1 [-> E]. simpl in *. subst. rewrite Nat.sub_diag. now apply wp_ret.
    + destruct HI as [HI|[E1 E2]]; [lia|]. unfold redistribute_left. rewrite E1, E2. unfold start, end_, len. simpl fst. simpl snd.
      apply wp_loop' with (I := fun '(x, y) m1 => m1 = m /\ fst x = snd x) (mu := fun _ => 0); auto. { simpl. split; auto; lia. } intros [[x1 x2] y] m1 [-> E]. simpl in *. subst. rewrite Nat.sub_diag. now apply wp_ret.
    + now apply wp_ret.
Qed.

(** Merging the pairs: [W] is what was pulled out of each range, [R] what is left. *)
Section Mid.
Variables (W R : bool -> nat -> list A).
Definition mid (i : nat) : nat := cs (2 * i) + length (W false i).
Definition width (i : nat) : nat := length (R false i) + length (R true i).
Hypothesis HL : forall b i, i < c -> length (W b i) + length (R b i) = length (xj (chk b i)) /\ sorted lt (R b i).

Lemma mid_pair : forall i, i < c -> cs (2 * i) <= mid i /\ mid i + length (R false i) = cs (2 * i + 1) /\ mid i + width i + length (W true i) = cs (2 * i + 2).
Proof.
  intros i Hi. unfold mid, width. destruct (HL false i Hi) as [L1 _]. destruct (HL true i Hi) as [L2 _]. simpl in *.
  destruct (HX (2 * i)) as [_ E1]; [lia|]. destruct (HX (2 * i + 1)) as [_ E2]; [lia|]. replace (S (2 * i)) with (2 * i + 1) in E1 by lia. replace (S (2 * i + 1)) with (2 * i + 2) in E2 by lia. lia.
Qed.
Lemma mid_other : forall i j, i < c -> j < c -> i <> j -> apart (mid i) (width i) (mid j) (width j).
Proof.
  intros i j Hi Hj H. pose proof (mid_pair i Hi). pose proof (mid_pair j Hj). destruct (Nat.lt_trichotomy i j) as [Hij|[Hij|Hij]]; [pose proof (cs_other i j Hij)|lia|pose proof (cs_other j i Hij)]; unfold apart; lia.
Qed.

Section Pairs.
Variables (cb K bs : nat) (buffer1 buffer2 : range) (p0 p1 : pull) (J : mem A -> Prop) (ft : nat -> Prop).
Definition removal (i : nat) : option (range * range) :=
  match remove_buffer (cs (2 * i)) p0 (cs (2 * i), cs (2 * i + 1)) (cs (2 * i + 1), cs (2 * i + 2)) with None => None | Some (RA, RB) => remove_buffer (cs (2 * i)) p1 RA RB end.
Hypothesis HR : forall i, i < c -> match removal i with
  | None => R false i = [] \/ R true i = []
  | Some (RA, RB) => RA = (mid i, cs (2 * i + 1)) /\ RB = (cs (2 * i + 1), cs (2 * i + 2) - length (W true i)) /\ R false i <> [] /\ R true i <> [] end.
Hypothesis HF : forall i a, i < c -> ft a -> ~ within (mid i) (width i) a.
Hypothesis HJ : forall i m (Q : unit -> mem A -> Prop), i < c -> R false i <> [] -> R true i <> [] -> J m -> seg m (mid i) (R false i ++ R true i) ->
  (forall m', J m' -> seg m' (mid i) (ssort lt (R false i ++ R true i)) -> only (fun a => within (mid i) (width i) a \/ ft a) m m' -> Q tt m') ->
  wp (merge_pair comp proj triv f cb K bs buffer1 buffer2 (mid i, cs (2 * i + 1)) (cs (2 * i + 1), cs (2 * i + 2) - length (W true i))) Q m.

Lemma merge_pairs_wp : forall m (Q : unit -> mem A -> Prop), J m -> (forall i, i < c -> seg m (mid i) (R false i ++ R true i)) ->
  (forall m', J m' -> (forall i, i < c -> seg m' (mid i) (ssort lt (R false i ++ R true i))) -> only (fun a => (exists i, i < c /\ within (mid i) (width i) a) \/ ft a) m m' -> Q tt m') ->
  wp (merge_pairs comp proj triv f n d (k * n / d) (k * n mod d) cb K bs buffer1 buffer2 p0 p1) Q m.
Proof.
  intros m Q JM SM HQ. unfold merge_pairs.
  assert (forall i m1 m2 l, i < c -> forall j, j < c -> j <> i -> only (fun a => within (mid i) (width i) a \/ ft a) m1 m2 -> length l = width j -> seg m1 (mid j) l -> seg m2 (mid j) l) as HK.
  { intros i m1 m2 l Hi j Hj Hne HO HE HS. eapply seg_only; [exact HO| |exact HS]. intros a Ha [H|H].
    - pose proof (mid_other i j Hi Hj ltac:(lia)). revert Ha H. win.
    - apply (HF j a Hj H). revert Ha. win. }
  apply loop_ranges with (d := d) (u := 2 * k) (c := c) (I := fun j m1 => J m1 /\ (forall i, i < j -> seg m1 (mid i) (ssort lt (R false i ++ R true i))) /\ (forall i, j <= i < c -> seg m1 (mid i) (R false i ++ R true i)) /\
    only (fun a => (exists i, i < c /\ within (mid i) (width i) a) \/ ft a) m m1); auto; try lia.
  - intros s m1 Q' HE HQ'. apply Nat.leb_le in HE. rewrite HE. now apply wp_ret.
  - intros j m1 Q' Hj (J1 & D1 & S1 & O1) HB HQ'. change (fst (st d (j * (2 * k) * n))) with (bd n d (2 * k) j). apply Nat.leb_gt in HB. rewrite HB.
    rewrite (next_pair_A n d f k c Hd Hn HD), (next_pair_B n d f k c Hd Hn HD). specialize (HR j Hj). unfold removal in HR. change (start (cs (2 * j), cs (2 * j + 1))) with (cs (2 * j)).
    assert (R false j = [] \/ R true j = [] -> Q' (inl (st d (S j * (2 * k) * n))) m1) as HN.
    { intros HE. apply HQ'. cj; auto.
      - intros i Hi. destruct (Nat.eq_dec i j) as [->|]; [|apply D1; lia]. replace (ssort lt (R false j ++ R true j)) with (R false j ++ R true j); [apply S1; lia|].
        symmetry. apply ssort_id; auto. destruct HE as [->| ->]; rewrite ?app_nil_r; simpl; apply HL; auto.
      - intros i Hi. apply S1. lia. }
    destruct (remove_buffer _ p0 _ _) as [[RA RB]|]; [|apply wp_ret; auto]. destruct (remove_buffer _ p1 _ _) as [[RA' RB']|]; [|apply wp_ret; auto].
    destruct HR as (-> & -> & NA & NB). apply wp_bind. apply HJ; auto. intros m2 J2 S2 O2. apply wp_ret. apply HQ'. cj; auto.
    + intros i Hi. destruct (Nat.eq_dec i j) as [->|]; auto. eapply (HK j); [auto|lia|auto|exact O2| |apply D1; lia]. rewrite ssort_length, app_length. reflexivity.
    + intros i Hi. eapply (HK j); [auto|lia|lia|exact O2| |apply S1; lia]. rewrite app_length. reflexivity.
    + eapply only_trans; [exact O1|]. eapply only_weaken; [exact O2|]. intros a [H|H]; auto. left. exists j. auto.
  - cj; auto. { intros; lia. } { intros i Hi. apply SM. lia. } apply only_refl.
  - intros m' (J1 & D1 & _ & O1). apply HQ; auto.
Qed.
End Pairs.
End Mid.

Definition here (b : bool) (i : nat) (b' : bool) (i' : nat) : bool := Bool.eqb b b' && (i =? i').
Lemma here_spec : forall b i b' i', here b i b' i' = true <-> b = b' /\ i = i'.
Proof. intros. unfold here. rewrite andb_true_iff, Nat.eqb_eq, Bool.eqb_true_iff. tauto. Qed.

(** The two pulls of a level: [w] is what was pulled out of a range and [r] what is left of it. *)
Section Two.
Variables (p0 p1 : pull) (b0 b1 : bool) (i0 i1 cut0 : nat) (w0 r0 w1 r1 : list A).
Definition W (b : bool) (i : nat) : list A := if here b i b0 i0 then w0 else if here b i b1 i1 then w1 else [].
Definition R (b : bool) (i : nat) : list A := if here b i b0 i0 then r0 else if here b i b1 i1 then r1 else xj (chk b i).
Hypothesis A0 : acts p0 b0 i0 w0 cut0.
Hypothesis A1 : acts p1 b1 i1 w1 0.
Hypothesis H0 : i0 < c -> sorted lt r0 /\ same (xj (chk b0 i0)) (mix b0 w0 r0).
Hypothesis H1 : i1 < c -> sorted lt r1 /\ same (xj (chk b1 i1)) (mix b1 w1 r1).
Hypothesis O0 : sorted lt w0.
Hypothesis O1 : sorted lt w1.
Hypothesis HO : i0 < i1 \/ i0 = i1 /\ b0 = false /\ b1 = true \/ i0 = c.
Hypothesis HCut : i0 < c -> cut0 = if i0 =? i1 then length w1 else 0.

Lemma WR_same : forall b i, i < c -> same (xj (chk b i)) (mix b (W b i) (R b i)).
Proof.
  intros b i Hi. unfold W, R. destruct (here b i b0 i0) eqn:E. { apply here_spec in E as [-> ->]. now apply H0. }
  destruct (here b i b1 i1) eqn:E1. { apply here_spec in E1 as [-> ->]. now apply H1. } destruct b; simpl; rewrite ?app_nil_r; apply same_refl.
Qed.
Lemma WR_sorted : forall b i, i < c -> sorted lt (R b i).
Proof.
  intros b i Hi. unfold R. destruct (here b i b0 i0) eqn:E. { apply here_spec in E as [-> ->]. now apply H0. }
  destruct (here b i b1 i1) eqn:E1. { apply here_spec in E1 as [-> ->]. now apply H1. } apply HX. destruct b; simpl; lia.
Qed.
Lemma WR_len : forall b i, i < c -> length (W b i) + length (R b i) = length (xj (chk b i)) /\ sorted lt (R b i).
Proof.
  intros b i Hi. split; [|now apply WR_sorted]. rewrite (Permutation_length (same_perm lt HW _ _ (WR_same b i Hi))). unfold mix. destruct b; rewrite app_length; lia.
Qed.

Lemma removal_spec : forall i, i < c -> match removal p0 p1 i with
  | None => R false i = [] \/ R true i = []
  | Some (RA, RB) => RA = (mid W i, cs (2 * i + 1)) /\ RB = (cs (2 * i + 1), cs (2 * i + 2) - length (W true i)) /\ R false i <> [] /\ R true i <> [] end.
Proof.
  intros i Hi. pose proof (mid_pair W R WR_len i Hi) as HM. pose proof (cs_pair i Hi) as HP. destruct (WR_len false i Hi) as [L1 _]. destruct (WR_len true i Hi) as [L2 _].
  destruct (HX (chk false i)) as [_ E1]; [simpl; lia|]. destruct (HX (chk true i)) as [_ E2]; [simpl; lia|]. simpl in E1, E2, L1, L2. replace (S (2 * i)) with (2 * i + 1) in E1 by lia. replace (S (2 * i + 1)) with (2 * i + 2) in E2 by lia.
  assert (forall l : list A, length l = 0 -> l = []) as HZ by (intros [|]; simpl; [auto|discriminate]).
  assert (forall l : list A, length l <> 0 -> l <> []) as HZ' by (intros l H -> ; now apply H).
  unfold removal. rewrite (remove_acts p0 b0 i0 w0 cut0 i _ _ A0 Hi) by (unfold len, start, end_; simpl; lia).
  assert (W false i = if (i =? i0) && negb b0 then w0 else if (i =? i1) && negb b1 then w1 else []) as EW1.
  { unfold W, here. destruct b0, b1; simpl; auto; destruct (i =? i0), (i =? i1); auto. }
  assert (W true i = if (i =? i0) && b0 then w0 else if (i =? i1) && b1 then w1 else []) as EW2.
  { unfold W, here. destruct b0, b1; simpl; auto; destruct (i =? i0), (i =? i1); auto. }
  assert (mid W i = cs (2 * i) + length (W false i)) as EM by reflexivity. unfold width in HM.
  destruct (Nat.eqb_spec i i0) as [E0|E0]; [destruct b0 eqn:EB|]; simpl in EW1, EW2; unfold start, end_; simpl fst; simpl snd.
  - assert (i <> i1) as NE by (destruct HO as [|[|]]; [lia|intuition discriminate|lia]). apply Nat.eqb_neq in NE. rewrite NE in EW1. simpl in EW1. rewrite EW1, EW2 in *. simpl length in *.
    match goal with |- context [if len ?r =? 0 then _ else _] => replace (len r) with (length (R true i)) by (unfold len, start, end_; simpl; lia) end.
    destruct (Nat.eqb_spec (length (R true i)) 0) as [E|E]; [auto|].
    rewrite (remove_acts p1 b1 i1 w1 0 i _ _ A1 Hi) by (unfold len, start, end_; simpl; lia). rewrite NE. cj; auto; try (f_equal; lia). apply HZ'. lia.
  - rewrite EW1 in *.
    match goal with |- context [if len ?r =? 0 then _ else _] => replace (len r) with (length (R false i)) by (unfold len, start, end_; simpl; lia) end.
    destruct (Nat.eqb_spec (length (R false i)) 0) as [E|E]; [auto|].
    rewrite (remove_acts p1 b1 i1 w1 0 i _ _ A1 Hi) by (unfold len, start, end_; simpl; lia).
    destruct (Nat.eqb_spec i i1) as [E1'|E1'].
    + assert (b1 = true) as -> by (destruct HO as [|[|]]; [lia|tauto|lia]). simpl in EW2. rewrite EW2 in *. unfold start, end_. simpl fst. simpl snd.
      match goal with |- context [if len ?r =? 0 then _ else _] => replace (len r) with (length (R true i)) by (unfold len, start, end_; simpl; lia) end.
      destruct (Nat.eqb_spec (length (R true i)) 0) as [E'|E']; [auto|]. cj; auto; try (f_equal; lia).
    + simpl in EW2. rewrite EW2 in *. simpl length in *. cj; auto; try (f_equal; lia). apply HZ'. lia.
  - rewrite (remove_acts p1 b1 i1 w1 0 i _ _ A1 Hi) by (unfold len, start, end_; simpl; lia).
    destruct (Nat.eqb_spec i i1) as [E1'|E1']; [destruct b1|]; simpl in EW1, EW2; rewrite EW1, EW2 in *; simpl length in *; unfold start, end_; simpl fst; simpl snd.
    + match goal with |- context [if len ?r =? 0 then _ else _] => replace (len r) with (length (R true i)) by (unfold len, start, end_; simpl; lia) end.
      destruct (Nat.eqb_spec (length (R true i)) 0) as [E|E]; [auto|]. cj; auto; try (f_equal; lia). apply HZ'. lia.
    + match goal with |- context [if len ?r =? 0 then _ else _] => replace (len r) with (length (R false i)) by (unfold len, start, end_; simpl; lia) end.
      destruct (Nat.eqb_spec (length (R false i)) 0) as [E|E]; [auto|]. cj; auto; try (f_equal; lia). apply HZ'. lia.
    + cj; auto; try (f_equal; lia); apply HZ'; lia.
Qed.

(** The two buffers are put back. *)
Lemma restore_wp : forall m (Q : unit -> mem A -> Prop),
  (forall i, i < c -> seg m (cs (2 * i)) (W false i ++ ssort lt (R false i ++ R true i) ++ W true i)) ->
  (forall m', (forall i, i < c -> seg m' (cs (2 * i)) (ssort lt (xj (2 * i) ++ xj (2 * i + 1)))) -> only (within f n) m m' -> Q tt m') ->
  wp (redistribute comp proj triv p0 ;; redistribute comp proj triv p1) Q m.
Proof.
  intros m Q SM HQ. set (MM := fun i => ssort lt (R false i ++ R true i)). set (Z := fun i => W false i ++ MM i ++ W true i).
  assert (forall i, i < c -> length (Z i) = cs (2 * i + 2) - cs (2 * i)) as LZ.
  { intros i Hi. pose proof (mid_pair W R WR_len i Hi) as HM. unfold mid, width in HM. unfold Z, MM. rewrite !app_length, ssort_length, app_length. lia. }
  assert (forall i, i < c -> ssort lt (xj (2 * i) ++ xj (2 * i + 1)) = ssort lt (W false i ++ R false i ++ R true i ++ W true i)) as EX.
  { intros i Hi. apply (ssort_same_eq lt HW). rewrite app_assoc. apply same_app; [apply (WR_same false i Hi)|apply (WR_same true i Hi)]. }
  set (V := if b0 then [] else W true i0).
  assert (i0 < c -> i0 = i1 -> b0 = false /\ b1 = true) as HO' by (intros; destruct HO as [|[|]]; [lia|tauto|lia]).
  apply wp_bind. eapply (redistribute_wp p0 b0 i0 w0 cut0 Z (MM i0) V); [auto| | | |apply (ssort_sorted lt HW)|auto| |].
  - intros Hi. unfold Z, V, W, here. destruct b0; simpl; rewrite Nat.eqb_refl; auto.
    replace (i0 =? i1) with false by (symmetry; apply Nat.eqb_neq; intros E; destruct (HO' Hi E); discriminate). rewrite andb_false_r. reflexivity.
  - intros Hi. rewrite (HCut Hi). unfold V, W, here. destruct b0; simpl.
    + replace (i0 =? i1) with false by (symmetry; apply Nat.eqb_neq; intros E; destruct (HO' Hi E); discriminate). reflexivity.
    + destruct (Nat.eqb_spec i0 i1) as [E|E]; [|now rewrite andb_false_r]. destruct (HO' Hi E) as [_ ->]. reflexivity.
  - unfold V. intros ->. reflexivity.
  - intros i Hi. split; [apply SM; auto|auto].
  - intros m1 S1 Q1. set (Z1 := fun i' => if i' =? i0 then if b0 then ssort lt (MM i0 ++ w0) else ssort lt (w0 ++ MM i0) ++ V else Z i').
    set (M1 := if i1 =? i0 then ssort lt (w0 ++ MM i0) else MM i1).
    assert (forall i, i < c -> length (Z1 i) = cs (2 * i + 2) - cs (2 * i)) as LZ1.
    { intros i Hi. rewrite <- LZ by auto. unfold Z1. destruct (Nat.eqb_spec i i0) as [->|]; auto. unfold Z, V, W, here. destruct b0; simpl; rewrite Nat.eqb_refl; simpl; rewrite ?app_length, ?ssort_length, ?app_length; try lia.
      replace (i0 =? i1) with false by (symmetry; apply Nat.eqb_neq; intros E; destruct (HO' Hi E); discriminate). rewrite andb_false_r. simpl. lia. }
    eapply (redistribute_wp p1 b1 i1 w1 0 Z1 M1 []); [auto| |auto|auto| |auto| |].
    + intros Hi. unfold Z1, M1. destruct (Nat.eqb_spec i1 i0) as [E|E].
      * destruct (HO' ltac:(lia) ltac:(lia)) as [E0 E1]. unfold V, W, here. rewrite E0, E1, E, Nat.eqb_refl. reflexivity.
      * unfold Z, W, here. apply Nat.eqb_neq in E. rewrite E, Nat.eqb_refl, !andb_false_r. destruct b1; simpl; rewrite ?app_nil_r; reflexivity.
    + unfold M1. destruct (i1 =? i0); apply (ssort_sorted lt HW).
    + intros i Hi. split; auto. apply S1. auto.
    + intros m2 S2 Q2. apply HQ.
      * intros i Hi. specialize (S2 i Hi). rewrite (EX i Hi). match goal with |- seg _ _ ?r => match type of S2 with seg _ _ ?l => replace r with l; auto end end. clear S2.
        unfold M1, Z1. destruct (Nat.eqb_spec i i1) as [E1|E1].
        -- subst i. destruct (Nat.eqb_spec i1 i0) as [E|E].
           ++ destruct (HO' ltac:(lia) ltac:(lia)) as [E0 E1]. unfold MM, W, here. rewrite E0, E1, <- E, Nat.eqb_refl. simpl. rewrite (ssort_app_l comp proj HC).
              rewrite <- !app_assoc. apply (ssort_same_eq lt HW). apply same_app; [apply same_refl|]. rewrite (app_assoc (R false i1)). apply same_app; [apply same_sym, (ssort_same lt HW)|apply same_refl].
           ++ unfold MM, W, here. apply Nat.eqb_neq in E. rewrite E, Nat.eqb_refl, !andb_false_r. destruct b1; simpl; rewrite ?app_nil_r, ?(ssort_app_l comp proj HC), ?(ssort_app_r comp proj HC), <- ?app_assoc; reflexivity.
        -- destruct (Nat.eqb_spec i i0) as [E|E].
           ++ subst i. unfold V, MM, W, here. apply Nat.eqb_neq in E1. rewrite E1, Nat.eqb_refl, !andb_false_r. destruct b0; simpl; rewrite ?app_nil_r, ?(ssort_app_l comp proj HC), ?(ssort_app_r comp proj HC), <- ?app_assoc; reflexivity.
           ++ unfold Z, MM, W, here. apply Nat.eqb_neq in E1. apply Nat.eqb_neq in E. rewrite E, E1, !andb_false_r. simpl. rewrite !app_nil_r. reflexivity.
      * eapply only_trans; [exact Q1|exact Q2].
Qed.

(** Before the pairs are merged, and after. *)
Lemma apart_pieces : forall m, (forall b i, i < c -> seg m (cs (chk b i)) (mix b (W b i) (R b i))) ->
  (forall i, i < c -> seg m (mid W i) (R false i ++ R true i)) /\ forall b i, i < c -> seg m (loc b i (length (W b i))) (W b i).
Proof.
  intros m SM.
  assert (forall i, i < c -> seg m (mid W i) (R false i) /\ seg m (cs (2 * i + 1)) (R true i) /\ seg m (cs (2 * i)) (W false i) /\ seg m (cs (2 * i + 1) + length (R true i)) (W true i)) as HS.
  { intros i Hi. pose proof (SM false i Hi) as S1. pose proof (SM true i Hi) as S2. simpl in S1, S2. apply seg_app in S1. apply seg_app in S2. unfold mid. tauto. }
  split.
  - intros i Hi. destruct (HS i Hi) as (S1 & S2 & _). pose proof (mid_pair W R WR_len i Hi) as HM. apply seg_app. split; auto. have S2.
  - intros b i Hi. destruct (HS i Hi) as (_ & _ & S1 & S2). pose proof (mid_pair W R WR_len i Hi) as HM. unfold width in HM. destruct b; simpl; auto. have S2.
Qed.
Lemma join_pieces : forall m, (forall i, i < c -> seg m (mid W i) (ssort lt (R false i ++ R true i))) -> (forall b i, i < c -> seg m (loc b i (length (W b i))) (W b i)) ->
  forall i, i < c -> seg m (cs (2 * i)) (W false i ++ ssort lt (R false i ++ R true i) ++ W true i).
Proof.
  intros m SM SW i Hi. pose proof (mid_pair W R WR_len i Hi) as HM. unfold width in HM. pose proof (SW false i Hi) as S1. pose proof (SW true i Hi) as S2. specialize (SM i Hi). simpl in S1, S2.
  apply seg_app. split; auto. apply seg_app. rewrite ssort_length, app_length. split; [exact SM|]. unfold mid in *. have S2.
Qed.
Lemma hole : forall b i i', i < c -> i' < c -> apart (mid W i') (width R i') (loc b i (length (W b i))) (length (W b i)) /\
  f <= loc b i (length (W b i)) /\ loc b i (length (W b i)) + length (W b i) <= f + n.
Proof.
  intros b i i' Hi Hi'. pose proof (mid_pair W R WR_len i Hi) as HM. pose proof (mid_pair W R WR_len i' Hi') as HM'. pose proof (cs_pair i Hi) as HP.
  assert (mid W i = cs (2 * i) + length (W false i)) as EM by reflexivity.
  assert (cs (2 * i) <= loc b i (length (W b i)) /\ loc b i (length (W b i)) + length (W b i) <= cs (2 * i + 2)) as [L1 L2] by (destruct b; simpl; lia).
  cj; try lia. destruct (Nat.lt_trichotomy i i') as [H|[H|H]]; [pose proof (cs_other i i' H)| |pose proof (cs_other i' i H)]; unfold apart; try lia.
  subst i'. destruct b; simpl; lia.
Qed.
Lemma mid_in : forall i, i < c -> f <= mid W i /\ mid W i + width R i <= f + n.
Proof. intros i Hi. pose proof (mid_pair W R WR_len i Hi). pose proof (cs_pair i Hi). lia. Qed.

Variables (cb K : nat).
Hypothesis AP : apart f n cb K.

Lemma tagged_wp : forall u1 q1 e1 u2 q2 bs m (Q : unit -> mem A -> Prop), strict lt u1 -> strict lt u2 -> 0 < bs -> (0 < length u2 -> bs <= length u2) -> (forall i, i < c -> length (R false i) / bs <= length u1) ->
  (forall i, i < c -> apart (mid W i) (width R i) q1 (length u1)) -> (forall i, i < c -> apart (mid W i) (width R i) q2 (length u2)) -> apart q1 (length u1) q2 (length u2) ->
  f <= q1 -> q1 + length u1 <= f + n -> f <= q2 -> q2 + length u2 <= f + n -> seg m q1 u1 -> seg m q2 u2 -> lives m cb K -> (forall i, i < c -> seg m (mid W i) (R false i ++ R true i)) ->
  (forall m', seg m' q1 u1 -> seg m' q2 u2 -> lives m' cb K -> (forall i, i < c -> seg m' (mid W i) (ssort lt (R false i ++ R true i))) -> only (fun a => within f n a \/ within cb K a) m m' -> Q tt m') ->
  wp (merge_pairs comp proj triv f n d (k * n / d) (k * n mod d) cb K bs (q1, e1) (q2, q2 + length u2) p0 p1 ;; insertion_sort comp proj q2 (q2 + length u2)) Q m.
Proof.
  intros u1 q1 e1 u2 q2 bs m Q ST1 ST2 HB HB2 HB1 AM1 AM2 A12 F1 F2 F3 F4 S1 S2 LC SM HQ. apply wp_bind.
  eapply (merge_pairs_wp W R WR_len cb K bs (q1, e1) (q2, q2 + length u2) p0 p1 (fun m => seg m q1 u1 /\ free q2 cb K u2 m) (fun a => within q1 (length u1) a \/ within q2 (length u2) a \/ within cb K a)).
  - exact removal_spec.
  - intros i a Hi Ha Hw. pose proof (AM1 i Hi). pose proof (AM2 i Hi). pose proof (mid_in i Hi). revert Ha Hw. win.
  - intros i m1 Q' Hi N1 N2 [J1 J2] SI HQ'. pose proof (mid_pair W R WR_len i Hi) as HM. pose proof (mid_in i Hi) as HI. unfold width in HM, HI. pose proof (AM1 i Hi) as AA1. pose proof (AM2 i Hi) as AA2. unfold width in AA1, AA2.
    eapply (merge_pair_wp comp proj triv HC (mid W i) (width R i) q2 cb K bs u2) with (b1 := q1) (u1 := u1) (l1 := R false i) (l2 := R true i); auto; try (unfold width; clear - AP HI F1 F2 F3 F4 A12; unfold apart in *; lia).
    + apply WR_len; auto. + apply WR_len; auto. + f_equal. lia. + unfold width. f_equal; lia.
  - split; auto. split; auto. exists u2. split; auto.
  - exact SM.
  - intros m1 [J1 (LC1 & v & PV & SV)] SM1 OM1. eapply (insertion_sort_region comp proj HC v); [exact SV|rewrite (Permutation_length PV); auto|]. intros m2 S2' O2. pose proof (Permutation_length PV) as LV.
    assert (ssort lt v = u2) as EV. { symmetry. apply (strict_unique lt); auto; [|apply (ssort_sorted lt HW)]. etransitivity; [exact PV|apply ssort_perm]. }
    rewrite EV in S2'. apply HQ; auto.
    + keep O2 J1.
    + keep O2 LC1.
    + intros i Hi. pose proof (AM2 i Hi) as AA2. pose proof (SM1 i Hi) as SI. assert (length (ssort lt (R false i ++ R true i)) = width R i) as EL by (rewrite ssort_length, app_length; reflexivity). keep O2 SI.
    + eapply only_trans; [eapply only_weaken; [exact OM1|]|eapply only_weaken; [exact O2|]].
      * intros a [(i & Hi & Ha)|[Ha|[Ha|Ha]]]; auto; left; [pose proof (mid_in i Hi)| |]; revert Ha; win.
      * win.
Qed.

(** When every range is constant, the pairs are only rotated: the first buffer, which is then a part of the first range, is not used. *)
Lemma plain_wp : forall q1 e1 q2 bs m (Q : unit -> mem A -> Prop), (forall j, j < 2 * c -> forall x y, In x (xj j) -> In y (xj j) -> lt x y = false) -> i0 = c -> i1 = c -> f <= q2 -> q2 <= f + n ->
  lives m cb K -> (forall i, i < c -> seg m (mid W i) (R false i ++ R true i)) ->
  (forall m', lives m' cb K -> (forall i, i < c -> seg m' (mid W i) (ssort lt (R false i ++ R true i))) -> only (fun a => within f n a \/ within cb K a) m m' -> Q tt m') ->
  wp (merge_pairs comp proj triv f n d (k * n / d) (k * n mod d) cb K bs (q1, e1) (q2, q2) p0 p1 ;; insertion_sort comp proj q2 q2) Q m.
Proof.
  intros q1 e1 q2 bs m Q HCn E0 E1 F1 F2 LC SM HQ. apply wp_bind.
  assert (forall b i, i < c -> W b i = [] /\ R b i = xj (chk b i)) as HWR.
  { intros b i Hi. unfold W, R, here. rewrite E0, E1. replace (i =? c) with false by (symmetry; apply Nat.eqb_neq; lia). rewrite !andb_false_r. auto. }
  eapply (merge_pairs_wp W R WR_len cb K bs (q1, e1) (q2, q2) p0 p1 (fun m => lives m cb K) (fun a => False)).
  - exact removal_spec.
  - auto.
  - intros i m1 Q' Hi N1 N2 J1 SI HQ'. pose proof (mid_pair W R WR_len i Hi) as HM. pose proof (mid_in i Hi) as HI. unfold width in HM, HI.
    destruct (WR_len false i Hi) as [_ OA]. destruct (WR_len true i Hi) as [_ OB].
    assert (forall x y, In x (R false i) -> In y (R false i) -> lt x y = false) as CA. { destruct (HWR false i Hi) as [_ ->]. apply HCn. simpl. lia. }
    assert (forall x y, In x (R true i) -> In y (R true i) -> lt x y = false) as CB. { destruct (HWR true i Hi) as [_ ->]. apply HCn. simpl. lia. }
    unfold width in HQ'. remember (R false i) as l1 eqn:El1. remember (R true i) as l2 eqn:El2. remember (mid W i) as g eqn:Eg. clear El1 El2 Eg.
    destruct (list_ends _ l1 N1) as [(x1 & t1 & E11) (s1 & y1 & E12)]. destruct (list_ends _ l2 N2) as [(x2 & t2 & E21) (s2 & y2 & E22)].
    pose proof SI as SI0. apply seg_app in SI as [SA SB].
    assert (nth_error m1 g = Some (Val x1)) as V1. { rewrite E11 in SA. now apply seg_first in SA. }
    assert (nth_error m1 (cs (2 * i + 1) - 1) = Some (Val y1)) as V2. { rewrite E12 in SA. apply seg_last in SA. rewrite <- E12 in SA. have SA. }
    assert (nth_error m1 (cs (2 * i + 1)) = Some (Val x2)) as V3. { rewrite E21 in SB. apply seg_first in SB. have SB. }
    assert (nth_error m1 (cs (2 * i + 2) - length (W true i) - 1) = Some (Val y2)) as V4. { rewrite E22 in SB. apply seg_last in SB. rewrite <- E22 in SB. have SB. }
    assert (In x1 l1 /\ In y1 l1 /\ In x2 l2 /\ In y2 l2) as (I1 & I2 & I3 & I4).
    { rewrite E11 at 1. rewrite E12 at 1. rewrite E21 at 1. rewrite E22 at 1. cj; try (left; reflexivity); try (apply in_or_app; right; left; reflexivity). }
    unfold merge_pair, start, end_. simpl fst. simpl snd.
    apply wp_bind. eapply comp_at_wp; [exact V4|exact V1|]. destruct (lt y2 x1) eqn:EC.
    + apply wp_bind. eapply (rotate_region triv l1 l2); [exact SI0|lia|lia|]. intros m2 S2 O2. apply wp_ret. apply HQ'; auto.
      * keep O2 J1.
      * replace (ssort lt (l1 ++ l2)) with (l2 ++ l1); auto. rewrite E11 in OA. rewrite E22 in OB. rewrite E11, E22. symmetry. apply (ssort_swapped comp proj HC); auto.
      * eapply only_weaken; [exact O2|]. auto.
    + apply wp_bind. eapply comp_at_wp; [exact V3|exact V2|]. destruct (lt x2 y1) eqn:EC2.
      * exfalso. assert (lt y2 y1 = true) as H by (apply (le_lt_trans lt HW y2 x2 y1); [apply CB; auto|auto]).
        rewrite (lt_le_trans lt HW y2 y1 x1 H) in EC; [discriminate|]. apply CA; auto.
      * apply wp_ret. apply HQ'; auto; [|apply only_refl]. replace (ssort lt (l1 ++ l2)) with (l1 ++ l2); auto. symmetry. apply ssort_id; auto. eapply (sorted_join comp proj HC l1 l2); eauto.
  - exact LC.
  - exact SM.
  - intros m1 LC1 SM1 OM1. eapply (insertion_sort_region comp proj HC []); [| simpl; lia |].
    { split; [|intros [|] ? H; discriminate]. simpl. destruct OM1 as [OL _]. rewrite OL. pose proof (kc_pos n d k c Hd Hn HD). pose proof (mid_pair W R WR_len (c - 1) ltac:(lia)) as HM.
      pose proof (SM (c - 1) ltac:(lia)) as SI. apply seg_len in SI. rewrite app_length in SI. destruct (HWR true (c - 1) ltac:(lia)) as [E _]. rewrite E in HM. unfold width in HM. pose proof cs_last as CL. replace (2 * (c - 1) + 2) with (2 * c) in HM by lia. simpl in HM. lia. }
    intros m2 _ O2. assert (only (fun _ => False) m1 m2) as O2'. { eapply only_weaken; [exact O2|]. win. } apply HQ.
    + keep O2 LC1.
    + intros i Hi. pose proof (SM1 i Hi) as SI. eapply seg_only; [exact O2'|auto|exact SI].
    + eapply only_trans; [eapply only_weaken; [exact OM1|]|eapply only_weaken; [exact O2'|]]; [|tauto].
      intros a [(i & Hi & Ha)|[]]. left. pose proof (mid_in i Hi). revert Ha. win.
Qed.

Lemma W_0 : W b0 i0 = w0.
Proof. unfold W. replace (here b0 i0 b0 i0) with true; auto. symmetry. now apply here_spec. Qed.
Lemma W_1 : i1 < c -> W b1 i1 = w1.
Proof.
  intros Hi. unfold W. destruct (here b1 i1 b0 i0) eqn:E. { apply here_spec in E as [E1 E2]. destruct HO as [|[(H2 & H3 & H4)|H2]]; [lia|congruence|lia]. }
  replace (here b1 i1 b1 i1) with true; auto. symmetry. now apply here_spec.
Qed.

Lemma tail_wp : forall (c0 : M A unit) m (Q : unit -> mem A -> Prop), f + n <= length m -> (forall b i, i < c -> seg m (cs (chk b i)) (mix b (W b i) (R b i))) -> lives m cb K ->
  (forall Q' : unit -> mem A -> Prop, (forall m', (i0 < c -> seg m' (loc b0 i0 (length w0)) w0) -> (i1 < c -> seg m' (loc b1 i1 (length w1)) w1) -> lives m' cb K ->
     (forall i, i < c -> seg m' (mid W i) (ssort lt (R false i ++ R true i))) -> only (fun a => within f n a \/ within cb K a) m m' -> Q' tt m') -> wp c0 Q' m) ->
  (forall m', (forall i, i < c -> seg m' (cs (2 * i)) (ssort lt (xj (2 * i) ++ xj (2 * i + 1)))) -> lives m' cb K -> only (fun a => within f n a \/ within cb K a) m m' -> Q tt m') ->
  wp (c0 ;; redistribute comp proj triv p0 ;; redistribute comp proj triv p1) Q m.
Proof.
  intros c0 m Q HLen SM LC H HQ. apply wp_bind. apply H. intros m1 S0 S1 LC1 SM1 Q1. eapply restore_wp.
  - apply join_pieces; [exact SM1|]. intros b i Hi. unfold W. destruct (here b i b0 i0) eqn:E. { apply here_spec in E as [-> ->]. auto. }
    destruct (here b i b1 i1) eqn:E1. { apply here_spec in E1 as [-> ->]. auto. }
    split; [|intros [|] ? ?; discriminate]. destruct Q1 as [EL _]. rewrite EL. pose proof (cs_pair i Hi). destruct b; simpl; lia.
  - intros m2 S2 Q2. apply HQ; auto; [keep Q2 LC1|]. eapply only_trans; [exact Q1|]. eapply only_weaken; [exact Q2|]. auto.
Qed.
End Two.

Variables (cb K : nat).
Hypothesis AP : apart f n cb K.

Lemma block_size_ok : forall L B n1 x, 0 < L -> B = L / Nat.sqrt L + 1 -> 0 < n1 -> x <= L + 1 -> x / (L / n1 + 1) <= n1 /\ (B <= n1 -> L / n1 + 1 <= B) /\ 2 <= B.
Proof.
  intros L B n1 x HL EB H1 HX1. pose proof (Nat.sqrt_spec L ltac:(lia)) as [S1 S2]. assert (0 < Nat.sqrt L) as S3 by (destruct (Nat.sqrt L); lia).
  pose proof (Nat.div_mod L n1 ltac:(lia)) as D1. pose proof (Nat.mod_upper_bound L n1 ltac:(lia)). pose proof (Nat.div_mod L (Nat.sqrt L) ltac:(lia)) as D2. pose proof (Nat.mod_upper_bound L (Nat.sqrt L) ltac:(lia)).
  assert (Nat.sqrt L <= L / Nat.sqrt L) as H3 by (apply Nat.div_le_lower_bound; lia). cj; [| |lia].
  - apply Nat.lt_succ_r. apply Nat.div_lt_upper_bound; nia.
  - intros HB. assert (L / n1 < B); [|lia]. apply Nat.div_lt_upper_bound; [lia|]. nia.
Qed.

Lemma chunk_bound : forall j, j < 2 * c -> length (xj j) <= k * n / d + 1.
Proof. intros j Hj. destruct (HX j Hj) as [_ E]. unfold WikiSearch.cs in E. pose proof (bd_step n d Hd Hn k j). lia. Qed.

Lemma chunk_keep : forall j j' m m' l, j <> j' -> j < 2 * c -> j' < 2 * c -> only (within (cs j) (length (xj j))) m m' -> length l = length (xj j') -> seg m (cs j') l -> seg m' (cs j') l.
Proof.
  intros j j' m m' l H Hj Hj' HO HL HS. destruct (HX j Hj) as [_ E1]. destruct (HX j' Hj') as [_ E2]. destruct (Nat.lt_trichotomy j j') as [H1|[H1|H1]]; [pose proof (cs_le (S j) j' H1)|lia|pose proof (cs_le (S j') j H1)]; keep HO HS.
Qed.
Lemma chk_inj : forall b i b' i', here b i b' i' = false -> chk b i <> chk b' i'.
Proof. intros b i b' i' H E. assert (here b i b' i' = true) as H1 by (apply here_spec; destruct b, b'; simpl in E; split; auto; lia). congruence. Qed.

Notation W1 b i w := (W b true i c w []).
Notation R1 b i r := (R b true i c r []).
Lemma one_wp : forall p p1 b i N L B n1 q2 n2 m (Q : unit -> mem A -> Prop), L = k * n / d -> B = L / Nat.sqrt L + 1 -> (forall j, j < 2 * c -> seg m (cs j) (xj j)) -> lives m cb K -> f + n <= length m ->
  site p b i N 0 -> 2 <= N -> unset p1 -> (n1 = N /\ q2 = f /\ n2 = 0 \/ n1 = B /\ n2 = B /\ N = B + B /\ q2 = loc b i N + B) ->
  (forall m', (forall i, i < c -> seg m' (cs (2 * i)) (ssort lt (xj (2 * i) ++ xj (2 * i + 1)))) -> lives m' cb K -> only (fun a => within f n a \/ within cb K a) m m' -> Q tt m') ->
  wp (let* pull0 := pull_out comp proj triv p in let* pull1 := pull_out comp proj triv p1 in
      merge_pairs comp proj triv f n d L (k * n mod d) cb K (L / n1 + 1) (loc b i N, loc b i N + n1) (q2, q2 + n2) pull0 pull1 ;; insertion_sort comp proj q2 (q2 + n2) ;;
      redistribute comp proj triv pull0 ;; redistribute comp proj triv pull1) Q m.
Proof.
  intros p p1 b i N L B n1 q2 n2 m Q EL EB SM LC HLen ST HN HU HCase HQ. pose proof (kc_pos n d k c Hd Hn HD) as [Hk Hc]. pose proof (bd_step_pos n d Hd Hn k Hk) as HLp. rewrite <- EL in HLp.
  assert (2 <= B) as HB by (apply (block_size_ok L B 1 0); auto; lia).
  assert (forall b i, i < c -> chk b i < 2 * c) as HChk by (intros [] j Hj; simpl; lia). assert (i < c) as Hi by apply ST.
  apply wp_bind. eapply pull_out_site; [exact ST|auto|apply SM; auto|]. intros p0' w rest m1 PW LW SW SR SS S1 O1. apply wp_bind. apply pull_out_idle; [now right|]. intros p1' I1'. subst N.
  assert (acts p0' b i w 0) as A0 by (now left). assert (acts p1' true c [] 0) as A1 by (right; auto).
  assert (i < c -> sorted lt rest /\ same (xj (chk b i)) (mix b w rest)) as H0 by auto. assert (c < c -> sorted lt [] /\ same (xj (chk true c)) (mix true [] [])) as H1 by (intros; lia).
  assert (i < c \/ i = c /\ b = false /\ true = true \/ i = c) as HO by auto. assert (i < c -> 0 = (if i =? c then length (@nil A) else 0)) as HCut by (intros _; destruct (i =? c); auto).
  assert (sorted lt w) as OW by (apply (strict_sorted lt HW); auto). assert (sorted lt []) as ON by apply sorted_nil.
  assert (lives m1 cb K) as LC1. { destruct (HX (chk b i)) as [_ E]; [auto|]. pose proof (cs_le 0 (chk b i) ltac:(lia)) as L1. pose proof (cs_le (S (chk b i)) (2 * c) ltac:(pose proof (HChk b i Hi); lia)) as L2. rewrite cs_first in L1. rewrite cs_last in L2. keep O1 LC. }
  assert (only (fun a => within f n a \/ within cb K a) m m1) as O1'. { eapply only_weaken; [exact O1|]. destruct (HX (chk b i)) as [_ E]; [auto|]. pose proof (cs_le 0 (chk b i) ltac:(lia)) as L1. pose proof (cs_le (S (chk b i)) (2 * c) ltac:(pose proof (HChk b i Hi); lia)) as L2. rewrite cs_first in L1. rewrite cs_last in L2. win. }
  assert (forall b' i', i' < c -> seg m1 (cs (chk b' i')) (mix b' (W1 b i w b' i') (R1 b i rest b' i'))) as SP.
  { intros b' i' Hi'. unfold W, R. destruct (here b' i' b i) eqn:E. { apply here_spec in E as [-> ->]. exact S1. }
    replace (here b' i' true c) with false by (unfold here; replace (i' =? c) with false by (symmetry; apply Nat.eqb_neq; lia); now rewrite andb_false_r).
    replace (mix b' [] (xj (chk b' i'))) with (xj (chk b' i')) by (destruct b'; simpl; rewrite ?app_nil_r; auto).
    eapply (chunk_keep (chk b i)); [|auto|auto|exact O1|auto|apply SM; auto]. apply chk_inj in E. auto. }
  apply wp_assoc. eapply (tail_wp p0' p1' b true i c 0 w rest [] [] A0 A1 H0 H1 OW ON HO HCut cb K AP); [destruct O1 as [-> _]; auto|exact SP|exact LC1| |].
  - intros Q' HQ'. pose proof (apart_pieces b true i c 0 w rest [] [] H0 H1 HO HCut m1 SP) as [SMid SWs]. specialize (SWs b i Hi). pose proof (hole b true i c 0 w rest [] [] H0 H1 HO HCut b i) as HH. rewrite W_0 in *.
    assert (forall i', i' < c -> length (R1 b i rest false i') <= L + 1) as HRb.
    { intros i' Hi'. destruct (WR_len b true i c 0 w rest [] [] H0 H1 HO HCut false i' Hi') as [E _]. pose proof (chunk_bound (chk false i') (HChk false i' Hi')). lia. }
    destruct (HH i Hi Hi) as (_ & F1 & F2). rewrite EL at 1.
    destruct HCase as [(-> & -> & ->)|(-> & -> & EN & ->)].
    + replace (f + 0) with (f + length (@nil A)) by auto.
      eapply (tagged_wp p0' p1' b true i c 0 w rest [] [] A0 A1 H0 H1 HO HCut cb K AP w) with (u2 := []); [auto|apply strict_nil|apply Nat.add_pos_r; auto| | | | | |auto|auto|auto| |exact SWs| |auto|auto|].
      * simpl. lia. * intros i' Hi'. apply (block_size_ok L B); auto; lia. * intros i' Hi'. apply (HH i'); auto.
      * intros i' Hi'. pose proof (mid_in b true i c 0 w rest [] [] H0 H1 HO HCut i' Hi'). right. simpl. lia.
      * right. simpl. lia. * simpl. lia.
      * split; [|intros [|] ? ?; discriminate]. destruct O1 as [-> _]. simpl. lia.
      * intros m' T1 T2 T3 T4 T5. apply HQ'; auto. intros; lia.
    + assert (exists u1 u2, w = u1 ++ u2 /\ length u1 = B /\ length u2 = B) as (u1 & u2 & EW & L1 & L2).
      { exists (firstn B w), (skipn B w). rewrite firstn_skipn, firstn_length, skipn_length. cj; auto; lia. }
      pose proof SW as SW'. rewrite EW in SW'. apply strict_app in SW' as (ST1 & ST2 & _). rewrite EW in SWs at 2. apply seg_app in SWs as [SW1 SW2]. rewrite L1 in SW2.
      replace (loc b i (length w) + B + B) with (loc b i (length w) + B + length u2) by lia.
      eapply (tagged_wp p0' p1' b true i c 0 w rest [] [] A0 A1 H0 H1 HO HCut cb K AP u1) with (u2 := u2); [auto|auto|apply Nat.add_pos_r; auto| | | | | |auto| | | |exact SW1|exact SW2|auto|auto|].
      * intros _. rewrite L2. apply (block_size_ok L B B 0); auto; lia.
      * intros i' Hi'. rewrite L1. apply (block_size_ok L B); auto; lia.
      * intros i' Hi'. destruct (HH i') as (H & _); auto. revert H. unfold apart. lia.
      * intros i' Hi'. destruct (HH i') as (H & _); auto. revert H. unfold apart. lia.
      * unfold apart. lia. * lia. * lia. * lia.
      * intros m' T1 T2 T3 T4 T5. apply HQ'; auto; [|intros; lia]. intros _. rewrite EW at 2. apply seg_app. rewrite L1. auto.
  - intros m' T1 T2 T3. apply HQ; auto. eapply only_trans; [exact O1'|exact T3].
Qed.

Lemma two_wp : forall p p1 b i N b' i' L B m (Q : unit -> mem A -> Prop), L = k * n / d -> B = L / Nat.sqrt L + 1 -> (forall j, j < 2 * c -> seg m (cs j) (xj j)) -> lives m cb K -> f + n <= length m ->
  site p b i N (if i =? i' then B else 0) -> B <= N -> site p1 b' i' B 0 -> i < i' \/ i = i' /\ b = false /\ b' = true ->
  (forall m', (forall i, i < c -> seg m' (cs (2 * i)) (ssort lt (xj (2 * i) ++ xj (2 * i + 1)))) -> lives m' cb K -> only (fun a => within f n a \/ within cb K a) m m' -> Q tt m') ->
  wp (let* pull0 := pull_out comp proj triv p in let* pull1 := pull_out comp proj triv p1 in
      merge_pairs comp proj triv f n d L (k * n mod d) cb K (L / N + 1) (loc b i N, loc b i N + N) (loc b' i' B, loc b' i' B + B) pull0 pull1 ;; insertion_sort comp proj (loc b' i' B) (loc b' i' B + B) ;;
      redistribute comp proj triv pull0 ;; redistribute comp proj triv pull1) Q m.
Proof.
  intros p p1 b i N b' i' L B m Q EL EB SM LC HLen ST HN ST' HOr HQ. pose proof (kc_pos n d k c Hd Hn HD) as [Hk Hc]. pose proof (bd_step_pos n d Hd Hn k Hk) as HLp. rewrite <- EL in HLp.
  assert (2 <= B) as HB by (apply (block_size_ok L B 1 0); auto; lia).
  assert (forall b i, i < c -> chk b i < 2 * c) as HChk by (intros [] j Hj; simpl; lia). assert (i < c) as Hi by apply ST. assert (i' < c) as Hi' by apply ST'.
  assert (here b' i' b i = false) as NE. { destruct (here b' i' b i) eqn:E; auto. apply here_spec in E as [E1 E2]. destruct HOr as [|(H2 & H3 & H4)]; [lia|congruence]. }
  assert (forall b i, i < c -> f <= cs (chk b i) /\ cs (chk b i) + length (xj (chk b i)) <= f + n) as HIn.
  { intros b1 i1 Hi1. destruct (HX (chk b1 i1)) as [_ E]; [auto|]. pose proof (cs_le 0 (chk b1 i1) ltac:(lia)) as L1. pose proof (cs_le (S (chk b1 i1)) (2 * c) ltac:(pose proof (HChk b1 i1 Hi1); lia)) as L2. rewrite cs_first in L1. rewrite cs_last in L2. lia. }
  apply wp_bind. eapply pull_out_site; [exact ST|lia|apply SM; auto|]. intros p0' w0 r0 m0 PW0 LW0 SW0 SR0 SS0 S0 O0. apply wp_bind.
  eapply pull_out_site; [exact ST'|lia| |]. { eapply (chunk_keep (chk b i)); [|auto|auto|exact O0|auto|apply SM; auto]. apply chk_inj in NE. auto. }
  intros p1' w1 r1 m1 PW1 LW1 SW1 SR1 SS1 S1 O1. subst N.
  set (cut := if i =? i' then B else 0) in *. assert (acts p0' b i w0 cut) as A0 by (now left). assert (acts p1' b' i' w1 0) as A1 by (now left).
  assert (i < c -> sorted lt r0 /\ same (xj (chk b i)) (mix b w0 r0)) as H0 by auto. assert (i' < c -> sorted lt r1 /\ same (xj (chk b' i')) (mix b' w1 r1)) as H1 by auto.
  assert (i < i' \/ i = i' /\ b = false /\ b' = true \/ i = c) as HO by tauto. assert (i < c -> cut = (if i =? i' then length w1 else 0)) as HCut by (intros _; unfold cut; now rewrite LW1).
  assert (sorted lt w0) as OW0 by (apply (strict_sorted lt HW); auto). assert (sorted lt w1) as OW1 by (apply (strict_sorted lt HW); auto).
  pose proof (HIn b i Hi) as HI0. pose proof (HIn b' i' Hi') as HI1.
  assert (lives m1 cb K) as LC1. { assert (lives m0 cb K) as LC0 by (keep O0 LC). keep O1 LC0. }
  assert (only (fun a => within f n a \/ within cb K a) m m1) as O1'. { eapply only_trans; [eapply only_weaken; [exact O0|]|eapply only_weaken; [exact O1|]]; win. }
  assert (forall b2 i2, i2 < c -> seg m1 (cs (chk b2 i2)) (mix b2 (W b b' i i' w0 w1 b2 i2) (R b b' i i' r0 r1 b2 i2))) as SP.
  { intros b2 i2 Hi2. unfold W, R. destruct (here b2 i2 b i) eqn:E.
    - apply here_spec in E as [-> ->]. eapply (chunk_keep (chk b' i')); [|auto|auto|exact O1| |exact S0]. { apply chk_inj in NE. auto. } symmetry. exact (Permutation_length (same_perm lt HW _ _ SS0)).
    - destruct (here b2 i2 b' i') eqn:E'. { apply here_spec in E' as [-> ->]. exact S1. }
      replace (mix b2 [] (xj (chk b2 i2))) with (xj (chk b2 i2)) by (destruct b2; simpl; rewrite ?app_nil_r; auto). apply chk_inj in E. apply chk_inj in E'.
      eapply (chunk_keep (chk b' i')); [auto|auto|auto|exact O1|auto|]. eapply (chunk_keep (chk b i)); [auto|auto|auto|exact O0|auto|apply SM; auto]. }
  apply wp_assoc. eapply (tail_wp p0' p1' b b' i i' cut w0 r0 w1 r1 A0 A1 H0 H1 OW0 OW1 HO HCut cb K AP); [destruct O1' as [-> _]; auto|exact SP|exact LC1| |].
  - intros Q' HQ'. pose proof (apart_pieces b b' i i' cut w0 r0 w1 r1 H0 H1 HO HCut m1 SP) as [SMid SWs]. pose proof (SWs b i Hi) as SWa. pose proof (SWs b' i' Hi') as SWb.
    pose proof (hole b b' i i' cut w0 r0 w1 r1 H0 H1 HO HCut b i) as HH. pose proof (hole b b' i i' cut w0 r0 w1 r1 H0 H1 HO HCut b' i') as HH'.
    rewrite W_0 in *. assert (W b b' i i' w0 w1 b' i' = w1) as EW1 by (eapply W_1; eauto). rewrite EW1 in *.
    assert (forall i2, i2 < c -> length (R b b' i i' r0 r1 false i2) <= L + 1) as HRb.
    { intros i2 Hi2. destruct (WR_len b b' i i' cut w0 r0 w1 r1 H0 H1 HO HCut false i2 Hi2) as [E _]. pose proof (chunk_bound (chk false i2) (HChk false i2 Hi2)). lia. }
    destruct (HH i Hi Hi) as (_ & F1 & F2). destruct (HH' i Hi' Hi) as (_ & F3 & F4). rewrite EL at 1.
    replace (loc b' i' B + B) with (loc b' i' B + length w1) by lia. replace B with (length w1) in * by lia.
    eapply (tagged_wp p0' p1' b b' i i' cut w0 r0 w1 r1 A0 A1 H0 H1 HO HCut cb K AP w0) with (u2 := w1); [auto|auto|apply Nat.add_pos_r; auto| | | | | |auto|auto|auto|auto|exact SWa|exact SWb|auto|auto|].
    + intros _. apply (block_size_ok L (length w1) (length w0) 0); auto; lia.
    + intros i2 Hi2. apply (block_size_ok L (length w1)); auto; lia.
    + intros i2 Hi2. apply (HH i2); auto.
    + intros i2 Hi2. apply (HH' i2); auto.
    + pose proof (site_loc comp proj n d f k c xj Hd Hn HD HX _ _ _ _ _ ST) as (G1 & G2 & _). pose proof (site_loc comp proj n d f k c xj Hd Hn HD HX _ _ _ _ _ ST') as (G3 & G4 & _).
      pose proof (cs_le (S (chk b i)) (chk b' i') ltac:(destruct HOr as [|(-> & -> & ->)]; [destruct b, b'; simpl; lia|simpl; lia])). left. lia.
    + intros m' T1 T2 T3 T4 T5. apply HQ'; auto.
  - intros m' T1 T2 T3. apply HQ; auto. eapply only_trans; [exact O1'|exact T3].
Qed.



Lemma merge_level_wp : forall junk m (Q : unit -> mem A -> Prop), (forall j, j < 2 * c -> seg m (cs j) (xj j)) -> lives m cb K ->
  (forall m', (forall i, i < c -> seg m' (cs (2 * i)) (ssort lt (xj (2 * i) ++ xj (2 * i + 1)))) -> lives m' cb K -> only (fun a => within f n a \/ within cb K a) m m' -> Q tt m') ->
  wp (merge_level comp proj triv junk f n d (k * n / d) (k * n mod d) cb K) Q m.
Proof.
  intros junk m Q SM LC HQ. unfold merge_level. pose proof (kc_pos n d k c Hd Hn HD) as [Hk Hc]. pose proof (bd_step_pos n d Hd Hn k Hk) as HLp.
  remember (k * n / d) as L eqn:EL. remember (L / Nat.sqrt L + 1) as B eqn:EB. assert (2 <= B) as HB by (apply (block_size_ok L B 1 0); auto; lia).
  assert (f + n <= length m) as HLen. { pose proof (SM (2 * c - 1) ltac:(lia)) as S1. apply seg_len in S1. destruct (HX (2 * c - 1) ltac:(lia)) as [_ E]. replace (S (2 * c - 1)) with (2 * c) in E by lia. rewrite cs_last in E. lia. }
  assert (forall b i, i < c -> chk b i < 2 * c) as HChk by (intros [] i Hi; simpl; lia).
  apply wp_bind. rewrite EL. eapply (find_buffers_wp comp proj HC n d f k c xj Hd Hn HD HX); [exact HB|exact SM|]. rewrite <- EL. intros s (b & i & N & HF).
  destruct HF as [(ST & HN & E1 & E2 & HU)|[(ST & HN & E1 & E2 & HU)|(b' & i' & ST & HN & ST' & HOr & E1 & E2)]].
  - (* one buffer *)
    destruct (Nat.eq_dec N 1) as [EN|EN].
    + destruct (HN EN) as [-> HCn]. subst N. assert (idle (s_pull0 s)) as I0. { destruct ST as (_ & _ & _ & _ & ET & q & a & r & _ & HG & _ & EF). left. inversion HG; subst. simpl in EF. lia. }
      apply wp_bind. apply pull_out_idle; auto. intros p0' I0'. apply wp_bind. apply pull_out_idle; [now right|]. intros p1' I1'.
      rewrite E1, E2. replace (len (loc false i 1, loc false i 1 + 1)) with 1 by (unfold len, start, end_; cbn [fst snd]; lia). cbn [start end_ fst snd]. change (1 =? 0) with false. cbv iota.
      assert (acts p0' false c [] 0) as A0 by (right; auto). assert (acts p1' true c [] 0) as A1 by (right; auto).
      assert (forall b, c < c -> sorted lt [] /\ same (xj (chk b c)) (mix b [] [])) as H0 by (intros; lia).
      assert (c < c \/ c = c /\ false = false /\ true = true \/ c = c) as HO by auto. assert (c < c -> 0 = (if c =? c then length (@nil A) else 0)) as HCut by (intros; lia). assert (sorted lt []) as ON by apply sorted_nil.
      assert (forall b2 i2, i2 < c -> seg m (cs (chk b2 i2)) (mix b2 (W false true c c [] [] b2 i2) (R false true c c [] [] b2 i2))) as SP.
      { intros b2 i2 Hi2. unfold W, R, here. replace (i2 =? c) with false by (symmetry; apply Nat.eqb_neq; lia). rewrite !andb_false_r.
        replace (mix b2 [] (xj (chk b2 i2))) with (xj (chk b2 i2)) by (destruct b2; simpl; rewrite ?app_nil_r; auto). apply SM. auto. }
      apply wp_assoc. eapply (tail_wp p0' p1' false true c c 0 [] [] [] [] A0 A1 (H0 false) (H0 true) ON ON HO HCut cb K AP); [auto|exact SP|exact LC| |exact HQ].
      intros Q' HQ'. pose proof (apart_pieces false true c c 0 [] [] [] [] (H0 false) (H0 true) HO HCut m SP) as [SMid _]. rewrite EL at 1.
      eapply (plain_wp p0' p1' false true c c 0 [] [] [] [] A0 A1 (H0 false) (H0 true) HO HCut cb K AP); auto; try lia.
      intros m' T1 T2 T3. apply HQ'; auto; intros; lia.
    + assert (2 <= N) as HN2 by (destruct ST as (_ & _ & ? & _); lia). rewrite E1, E2. replace (len (loc b i N, loc b i N + N)) with N by (unfold len, start, end_; cbn [fst snd]; lia). cbn [start end_ fst snd].
      replace (N =? 0) with false by (symmetry; apply Nat.eqb_neq; lia). cbv iota. pose proof (one_wp (s_pull0 s) (s_pull1 s) b i N L B N f 0 m Q EL EB SM LC HLen ST HN2 HU) as HP. rewrite Nat.add_0_r in HP. apply HP; auto.
  - (* one run of values that is split in two buffers *)
    assert (2 <= N) as HN2 by lia. rewrite E1, E2. replace (len (loc b i N, loc b i N + B)) with B by (unfold len, start, end_; cbn [fst snd]; lia). cbn [start end_ fst snd].
    replace (B =? 0) with false by (symmetry; apply Nat.eqb_neq; lia). cbv iota. apply (one_wp (s_pull0 s) (s_pull1 s) b i N L B B (loc b i N + B) B m Q EL EB SM LC HLen ST HN2 HU); auto; right; auto.
  - (* two buffers *)
    rewrite E1, E2. replace (len (loc b i N, loc b i N + N)) with N by (unfold len, start, end_; cbn [fst snd]; lia). cbn [start end_ fst snd].
    replace (N =? 0) with false by (symmetry; apply Nat.eqb_neq; lia). cbv iota. apply (two_wp (s_pull0 s) (s_pull1 s) b i N b' i' L B m Q EL EB SM LC HLen ST HN ST' HOr); auto.
Qed.

End Rows.
