(** wiki_sort: the merges of two ranges. *)
From Coq Require Import List Arith Lia Permutation Bool.
From Verif Require Import Spec.Order Lang.Mem Spec.Sorts Proofs.Wp Proofs.OrderLib Proofs.MergeLib Model.Rotate Proofs.RotateGcd Proofs.Search Model.Search Proofs.HalfMerge Proofs.Regions
  Model.Heap Proofs.Heap Model.Insertion Proofs.Insertion Proofs.MergeSort Proofs.BufMerge Proofs.GrailMerge Model.Merge Model.Spin Proofs.SpinMerge Proofs.SpinHalf Model.Wiki Proofs.WikiFind.
Import ListNotations.
Local Arguments nth_error : simpl never.
Local Arguments upd : simpl never.
Local Arguments Nat.leb : simpl never.
Local Arguments Nat.ltb : simpl never.

Lemma nth_eq : forall A (m : mem A) i j v, nth_error m i = v -> i = j -> nth_error m j = v.
Proof. intros; subst; auto. Qed.
Lemma seg_eq : forall A (m : mem A) f g xs, seg m f xs -> f = g -> seg m g xs.
Proof. intros; subst; auto. Qed.
Lemma nth_only : forall A (P : nat -> Prop) (m m' : mem A) i v, only P m m' -> ~ P i -> nth_error m i = v -> nth_error m' i = v.
Proof. intros A P m m' i v [_ H] HP <-. auto. Qed.
Lemma wp_assoc : forall A X Y Z (c : M A X) (k1 : X -> M A Y) (k2 : Y -> M A Z) (Q : Z -> mem A -> Prop) m, wp (bind (bind c k1) k2) Q m -> wp (bind c (fun x => bind (k1 x) k2)) Q m.
Proof. intros A X Y Z c k1 k2 Q m. unfold wp, bind. destruct (c m); auto. Qed.
Lemma wp_unbind : forall A X Y (c : M A X) (k : X -> M A Y) (Q : Y -> mem A -> Prop) m, wp (bind c k) Q m -> wp c (fun x => wp (k x) Q) m.
Proof. intros A X Y c k Q m. unfold wp, bind. destruct (c m); auto. Qed.
(** A region, or a cell, that a step leaves alone. *)
Ltac keep O H := first
  [ eapply seg_eq; [eapply seg_only; [exact O| |exact H]; win|lia]
  | eapply nth_eq; [eapply nth_only; [exact O| |exact H]; win|lia]
  | eapply lives_only; [exact O| |exact H]; win ].
Ltac have H := first [ eapply seg_eq; [exact H|lia] | eapply nth_eq; [exact H|lia] ].

Section Merges.
Context {A T : Type} (comp : T -> T -> bool) (proj : A -> T).
Local Notation lt := (by_proj comp proj).
Implicit Types (m : mem A).
Hypothesis HC : strict_weak_order comp.
Let HW : strict_weak_order lt := swo_by_proj _ _ comp proj HC.

Lemma ssort_pair : forall l1 l2, sorted lt l1 -> sorted lt l2 -> ssort lt (l1 ++ l2) = merge lt l1 l2.
Proof. intros. symmetry. now apply (merge_sorted_eq lt HW). Qed.

(** * With the first range in the cache *)
Lemma half_merge_region : forall l1 l2 m B eB b eb f n (Q : unit -> mem A -> Prop), sorted lt l1 -> sorted lt l2 ->
  seg m B l1 -> seg m b l2 -> lives m f (length l1) -> eB = B + length l1 -> b = f + length l1 -> eb = b + length l2 ->
  apart B (length l1) f (length l1 + length l2) -> n <= length l1 -> n <= length l2 ->
  (forall m', seg m' f (ssort lt (l1 ++ l2)) -> lives m' B (length l1) ->
     only (fun i => within B (length l1) i \/ within f (length l1 + length l2) i) m m' -> Q tt m') ->
  wp (half_inplace_merge false comp proj B eB b eb f n) Q m.
Proof.
  intros l1 l2 m B eB b eb f n Q O1 O2 S1 S2 LF -> -> -> AP N1 N2 HQ. eapply wp_mono.
  - apply (half_inplace_merge_wp comp proj false B (f + length l1) f l1 l2 m); auto; try discriminate.
    + intros i j Hi Hj. unfold adr. win.
    + split; auto; try lia.
      * exists []. cj; auto. intros [|t] x Hx; discriminate.
      * intros t x _ Hx. eapply seg_get; eauto.
      * intros t x _ Hx. eapply seg_get; eauto.
      * intros t Ht. unfold adr. destruct (Nat.lt_ge_cases t (length l1)); [eapply lives_at; [exact LF|lia]|]. eapply lives_at; [apply seg_lives; exact S2|lia].
      * intros t Ht. unfold adr. eapply lives_at; [apply seg_lives; exact S1|lia].
  - intros [] m' (D1 & D2 & D3 & D4). unfold adr in *. apply HQ.
    + rewrite ssort_pair by auto. split; [|auto]. rewrite merge_length, D1. apply seg_len in S2. lia.
    + split; [apply seg_len in S1; lia|]. intros i Hi. replace i with (B + (i - B)) by lia. apply D3. lia.
    + split; auto. intros i Hi. apply D4; intros t Ht E; apply Hi; win.
Qed.

(** With the second range in the cache. *)
Lemma half_merge_back_region : forall l1 l2 m B eB mi f l n (Q : unit -> mem A -> Prop), sorted lt l1 -> sorted lt l2 ->
  seg m f l1 -> seg m B l2 -> lives m mi (length l2) -> eB = B + length l2 -> mi = f + length l1 -> l = mi + length l2 ->
  apart B (length l2) f (length l1 + length l2) -> n <= length l1 -> n <= length l2 ->
  (forall m', seg m' f (ssort lt (l1 ++ l2)) -> lives m' B (length l2) ->
     only (fun i => within B (length l2) i \/ within f (length l1 + length l2) i) m m' -> Q tt m') ->
  wp (half_inplace_merge true (flip_comp comp) proj eB B mi f l n) Q m.
Proof.
  intros l1 l2 m B eB mi f l n Q O1 O2 S1 S2 LF -> -> -> AP N1 N2 HQ.
  assert (forall (l : list A) t x, nth_error (rev l) t = Some x -> t < length l /\ nth_error l (length l - S t) = Some x) as Hrev.
  { intros l t x Hx. pose proof (nth_lt _ _ _ Hx) as Ht. rewrite rev_length in Ht. split; auto. rewrite <- Hx. symmetry. now apply nth_rev. }
  eapply wp_mono.
  - replace B with (pos true (B + length l2) (length (rev l2))) at 2 by (simpl; rewrite rev_length; lia).
    replace f with (pos true (f + length l1) (length (rev l1))) at 2 by (simpl; rewrite rev_length; lia).
    apply (half_inplace_merge_wp (flip_comp comp) proj true (B + length l2) (f + length l1) (f + length l1 + length l2) (rev l2) (rev l1) m); rewrite ?rev_length; auto; try lia.
    + simpl. lia.
    + intros i j Hi Hj. simpl. win.
    + split; rewrite ?rev_length; auto; try lia.
      * exists []. cj; auto. intros [|t] x Hx; discriminate.
      * intros t x _ Hx. apply Hrev in Hx as [Ht Hx]. unfold adr. eapply seg_at; [exact S2|exact Hx|lia].
      * intros t x _ Hx. apply Hrev in Hx as [Ht Hx]. unfold adr. eapply seg_at; [exact S1|exact Hx|lia].
      * intros t Ht. unfold adr. destruct (Nat.lt_ge_cases t (length l2)); [eapply lives_at; [exact LF|lia]|]. eapply lives_at; [apply seg_lives; exact S1|lia].
      * intros t Ht. unfold adr. eapply lives_at; [apply seg_lives; exact S2|lia].
  - intros [] m' (D1 & D2 & D3 & D4). rewrite !rev_length in *. unfold adr in *.
    set (mg := merge (by_proj (flip_comp comp) proj) (rev l2) (rev l1)) in *.
    assert (length mg = length l1 + length l2) as Lmg by (unfold mg; rewrite merge_length, !rev_length; lia).
    assert (rev mg = ssort lt (l1 ++ l2)) as Emg by (apply (is_merge_backward lt l1 l2); auto).
    apply HQ.
    + rewrite <- Emg. split; [rewrite rev_length, D1; apply seg_len in S1; destruct LF; lia|]. intros t x Hx. apply Hrev in Hx as [Ht Hx].
      replace (f + t) with (f + length l1 + length l2 - S (length mg - S t)) by lia. now apply D2.
    + split; [apply seg_len in S2; lia|]. intros i Hi. replace i with (B + length l2 - S (B + length l2 - S i)) by lia. apply D3. lia.
    + split; auto. intros i Hi. apply D4; intros t Ht E; apply Hi; win.
Qed.

Lemma cache_inplace_merge_region : forall l1 l2 m f mi l n1 n2 cb K (Q : unit -> mem A -> Prop), sorted lt l1 -> sorted lt l2 ->
  seg m f (l1 ++ l2) -> lives m cb K -> mi = f + length l1 -> l = mi + length l2 -> n1 = length l1 -> n2 = length l2 ->
  Nat.min (length l1) (length l2) <= K -> apart cb K f (length l1 + length l2) ->
  (forall m', seg m' f (ssort lt (l1 ++ l2)) -> lives m' cb K -> only (fun i => within cb K i \/ within f (length l1 + length l2) i) m m' -> Q tt m') ->
  wp (cache_inplace_merge comp proj true f mi l n1 n2 cb) Q m.
Proof.
  intros l1 l2 m f mi l n1 n2 cb K Q O1 O2 S12 LC -> -> -> -> HK AP HQ. unfold cache_inplace_merge, move_to_cache, destroy_cache.
  apply seg_app in S12 as [S1 S2]. destruct (Nat.leb_spec (length l1) (length l2)).
  - apply wp_bind. apply move_range_region with (xs := l1); auto; try win. { eapply lives_sub; [exact LC|lia..]. }
    intros m1 T1 T2 O3. apply wp_bind. eapply half_merge_region; [exact O1|exact O2|exact T1| |exact T2|reflexivity|reflexivity|reflexivity| |lia|lia|].
    + eapply seg_only; [exact O3| |exact S2]; win.
    + win.
    + intros m2 T3 T4 O4. apply wp_ret. apply HQ; auto.
      * eapply lives_change; [eapply lives_change; [exact LC|exact (proj1 O3)|]|exact (proj1 O4)|].
        -- intros i Hi Hl. destruct (Nat.lt_ge_cases i (cb + length l1)); [eapply lives_at; [eapply seg_lives; exact T1|win]|eapply live_only; [exact O3| |exact Hl]; win].
        -- intros i Hi Hl. destruct (Nat.lt_ge_cases i (cb + length l1)); [eapply lives_at; [exact T4|win]|eapply live_only; [exact O4| |exact Hl]; win].
      * eapply only_trans; (eapply only_weaken; [eassumption|]); win.
  - apply wp_bind. apply move_range_region with (xs := l2); auto; try win. { eapply lives_sub; [exact LC|lia..]. }
    intros m1 T1 T2 O3. apply wp_bind. eapply half_merge_back_region; [exact O1|exact O2| |exact T1|exact T2|reflexivity|reflexivity|reflexivity| |lia|lia|].
    + eapply seg_only; [exact O3| |exact S1]; win.
    + win.
    + intros m2 T3 T4 O4. apply wp_ret. apply HQ; auto.
      * eapply lives_change; [eapply lives_change; [exact LC|exact (proj1 O3)|]|exact (proj1 O4)|].
        -- intros i Hi Hl. destruct (Nat.lt_ge_cases i (cb + length l2)); [eapply lives_at; [eapply seg_lives; exact T1|win]|eapply live_only; [exact O3| |exact Hl]; win].
        -- intros i Hi Hl. destruct (Nat.lt_ge_cases i (cb + length l2)); [eapply lives_at; [exact T4|win]|eapply live_only; [exact O4| |exact Hl]; win].
      * eapply only_trans; (eapply only_weaken; [eassumption|]); win.
Qed.

(** * With the first range in an internal buffer *)
Lemma merge_internal_region : forall l1 l2 g m f e1 f2 e2 b (Q : unit -> mem A -> Prop), sorted lt l1 -> sorted lt l2 -> length g = length l1 ->
  seg m b l1 -> seg m f (g ++ l2) -> e1 = f + length l1 -> f2 = e1 -> e2 = e1 + length l2 -> apart b (length l1) f (length l1 + length l2) ->
  (forall g' m', Permutation g g' -> seg m' b g' -> seg m' f (ssort lt (l1 ++ l2)) ->
     only (fun i => within b (length l1) i \/ within f (length l1 + length l2) i) m m' -> Q tt m') ->
  wp (merge_internal comp proj f e1 f2 e2 b) Q m.
Proof.
  intros l1 l2 g m f e1 f2 e2 b Q O1 O2 HG S1 S2 -> -> -> AP HQ. rewrite ssort_pair in HQ by auto. unfold merge_internal.
  replace (f + length l1 - f) with (length l1) by lia. set (P := fun i => within b (length l1) i \/ within f (length l1 + length l2) i) in *.
  assert (FIN : forall out g1 gp s1 s2 m1, only P m m1 -> seg m1 f (out ++ gp ++ s2) -> seg m1 b (g1 ++ s1) -> Permutation (g1 ++ gp) g -> out ++ merge lt s1 s2 = merge lt l1 l2 ->
    length gp = length s1 -> length g1 + length s1 = length l1 -> length out + length gp + length s2 = length l1 + length l2 -> s1 = [] \/ s2 = [] ->
    wp (let* _ := swap_ranges (b + length g1) (b + length l1) (f + length out) in ret tt) Q m1).
  { intros out g1 gp s1 s2 m1 HO T1 T2 HP HM L1 L2 L3 HN. apply seg_app in T1 as [T1 T1b]. apply seg_app in T1b as [T1b T1c]. apply seg_app in T2 as [T2 T2b].
    apply wp_bind. apply swap_ranges_region with (xs := s1) (ys := gp); auto; try lia; try win. intros m2 V1 V2 O3. apply wp_ret. apply HQ with (g' := g1 ++ gp).
    - now symmetry.
    - apply seg_app. split; auto. eapply seg_only; [exact O3| |exact T2]; win.
    - rewrite <- HM. destruct HN as [->| ->].
      + destruct gp; [|discriminate]. rewrite merge_nil_l. simpl length in *. rewrite Nat.add_0_r in *. apply seg_app. split; [eapply seg_only; [exact O3| |exact T1]; win|eapply seg_only; [exact O3| |exact T1c]; win].
      + rewrite merge_nil_r. apply seg_app. split; auto. eapply seg_only; [exact O3| |exact T1]; win.
    - eapply only_trans; [exact HO|]. eapply only_weaken; [exact O3|]. unfold P. win. }
  destruct (Nat.eqb_spec f (f + length l1)) as [E1|E1].
  { destruct l1; [|simpl in E1; lia]. destruct g; [|discriminate]. simpl. apply wp_bind, wp_ret.
    pose proof (FIN [] [] [] [] l2 m) as F. simpl in F. rewrite !Nat.add_0_r in *. apply F; auto. apply only_refl. }
  destruct (Nat.eqb_spec (f + length l1) (f + length l1 + length l2)) as [E2|E2].
  { destruct l2; [|simpl in E2; lia]. simpl. apply wp_bind, wp_ret.
    pose proof (FIN [] [] g l1 [] m) as F. simpl in F. rewrite !Nat.add_0_r in *. apply F; auto; try lia. { apply only_refl. } }
  simpl negb. cbv iota. simpl andb. apply wp_bind. unfold merge_internal_loop.
  apply wp_loop' with (I := fun '(ai, bi, ins) m1 => exists out g1 gp s1 s2, only P m m1 /\ seg m1 f (out ++ gp ++ s2) /\ seg m1 b (g1 ++ s1) /\ Permutation (g1 ++ gp) g /\
      out ++ merge lt s1 s2 = merge lt l1 l2 /\ length gp = length s1 /\ length g1 + length s1 = length l1 /\ length out + length gp + length s2 = length l1 + length l2 /\
      s1 <> [] /\ s2 <> [] /\ ai = b + length g1 /\ bi = f + length out + length gp /\ ins = f + length out)
    (mu := fun '(_, _, ins) => f + length l1 + length l2 - ins).
  - exists [], [], g, l1, l2. simpl. rewrite !Nat.add_0_r, HG. cj; auto. { apply only_refl. } { intros ->. simpl in E1. lia. } { intros ->. simpl in E2. lia. }
  - lia.
  - intros [[ai bi] ins] m1 (out & g1 & gp & s1 & s2 & HO & T1 & T2 & HP & HM & L1 & L2 & L3 & N1 & N2 & -> & -> & ->).
    destruct s1 as [|x s1]; [congruence|]. destruct s2 as [|y s2]; [congruence|]. destruct gp as [|h gp]; [discriminate|].
    pose proof T1 as T1'. pose proof T2 as T2'. apply seg_app in T1 as [T1 T1b]. apply seg_app in T1b as [T1b T1c]. apply seg_cons in T1b as [Gh T1b]. apply seg_cons in T1c as [Gy T1c].
    apply seg_app in T2 as [T2 T2b]. apply seg_cons in T2b as [Gx T2b]. simpl length in *.
    apply wp_bind. eapply comp_at_wp; [exact Gy|exact Gx|]. rewrite merge_cons in HM. destruct (lt y x) eqn:E; cbn [negb].
    + apply wp_bind. eapply swap_region; [exact Gh|exact Gy|]. intros m2 V1 V2 O3.
      assert (only P m m2) as HO2 by (eapply only_trans; [exact HO|]; eapply only_weaken; [exact O3|]; unfold P; win).
      assert (seg m2 f ((out ++ [y]) ++ (gp ++ [h]) ++ s2)) as U1.
      { rewrite <- !app_assoc. apply seg_app. split; [eapply seg_only; [exact O3| |exact T1]; win|]. simpl. apply seg_cons. split; auto.
        apply seg_app. split; [eapply seg_only; [exact O3| |exact T1b]; win|]. simpl. apply seg_cons. split; [have V2|keep O3 T1c]. }
      assert (seg m2 b (g1 ++ x :: s1)) as U2 by (eapply seg_only; [exact O3| |exact T2']; rewrite ?app_length; win).
      assert (Permutation (g1 ++ gp ++ [h]) g) as HP2. { rewrite <- HP. apply Permutation_app_head. symmetry. apply Permutation_cons_append. }
      match goal with |- wp (if ?c then _ else _) _ _ => destruct c eqn:EE end.
      * apply Nat.eqb_eq in EE. destruct s2; [|simpl in *; lia]. apply wp_ret. rewrite <- (app_nil_r (gp ++ [h])) in HP2.
        replace (S (f + length out)) with (f + length (out ++ [y])) by lens. eapply FIN with (gp := gp ++ [h]) (s1 := x :: s1) (s2 := []); auto; try (lens; fail).
        { now rewrite app_nil_r in HP2. } { rewrite <- HM. now rewrite <- app_assoc. }
      * apply Nat.eqb_neq in EE. apply wp_ret. split; [|lia]. exists (out ++ [y]), g1, (gp ++ [h]), (x :: s1), s2. cj; auto; try (lens; fail).
        { rewrite <- HM. now rewrite <- app_assoc. } { intros ->. simpl in *. lia. }
    + apply wp_bind. eapply swap_region; [exact Gh|exact Gx|]. intros m2 V1 V2 O3.
      assert (only P m m2) as HO2 by (eapply only_trans; [exact HO|]; eapply only_weaken; [exact O3|]; unfold P; win).
      assert (seg m2 f ((out ++ [x]) ++ gp ++ y :: s2)) as U1.
      { rewrite <- !app_assoc. apply seg_app. split; [eapply seg_only; [exact O3| |exact T1]; win|]. simpl. apply seg_cons. split; auto.
        apply seg_app. split; [eapply seg_only; [exact O3| |exact T1b]; win|]. apply seg_cons. split; [keep O3 Gy|keep O3 T1c]. }
      assert (seg m2 b ((g1 ++ [h]) ++ s1)) as U2.
      { rewrite <- app_assoc. apply seg_app. split; [eapply seg_only; [exact O3| |exact T2]; win|]. simpl. apply seg_cons. split; auto. eapply seg_only; [exact O3| |exact T2b]; win. }
      assert (Permutation ((g1 ++ [h]) ++ gp) g) as HP2 by now rewrite <- app_assoc.
      match goal with |- wp (if ?c then _ else _) _ _ => destruct c eqn:EE end.
      * apply Nat.eqb_eq in EE. destruct s1; [|simpl in *; lia]. destruct gp; [|simpl in *; lia]. apply wp_ret.
        replace (S (f + length out)) with (f + length (out ++ [x])) by lens. replace (S (b + length g1)) with (b + length (g1 ++ [h])) by lens.
        eapply FIN with (gp := []) (s1 := []) (s2 := y :: s2); auto; try (lens; fail).
        { rewrite <- HM. now rewrite <- app_assoc. }
      * apply Nat.eqb_neq in EE. apply wp_ret. split; [|lia]. exists (out ++ [x]), (g1 ++ [h]), gp, s1, (y :: s2). cj; auto; try (lens; fail).
        { rewrite <- HM. now rewrite <- app_assoc. } { intros ->. simpl in *. lia. }
Qed.

(** * In place *)
Lemma merge_in_place_region : forall triv L R m f mi l (Q : unit -> mem A -> Prop), sorted lt L -> sorted lt R -> seg m f (L ++ R) -> mi = f + length L -> l = mi + length R ->
  (forall m', seg m' f (ssort lt (L ++ R)) -> only (within f (length L + length R)) m m' -> Q tt m') -> wp (merge_in_place comp proj triv f mi l) Q m.
Proof.
  intros triv L R m f mi l Q SL SR S1 -> -> HQ. rewrite ssort_pair in HQ by auto. unfold merge_in_place.
  match goal with |- wp (if ?b then _ else _) _ _ => destruct b eqn:E end.
  { apply wp_ret. apply HQ; [|apply only_refl]. apply orb_true_iff in E as [E|E]; apply Nat.eqb_eq in E.
    - destruct L; [|simpl in E; lia]. now rewrite merge_nil_l.
    - destruct R; [|simpl in E; lia]. rewrite app_nil_r in S1. now rewrite merge_nil_r. }
  apply orb_false_iff in E as [E1 E2]. apply Nat.eqb_neq in E1, E2.
  apply wp_loop' with
    (I := fun '(first, middle) m1 => exists O L' R', only (within f (length L + length R)) m m1 /\ seg m1 f (O ++ L' ++ R') /\ O ++ merge lt L' R' = merge lt L R /\
       sorted lt L' /\ sorted lt R' /\ first = f + length O /\ middle = first + length L' /\ length O + length L' + length R' = length L + length R /\ L' <> [] /\ R' <> [])
    (mu := fun '(first, middle) => f + length L + length R - first).
  - exists [], L, R. simpl. rewrite Nat.add_0_r. cj; auto. { apply only_refl. } { intros ->. simpl in E1. lia. } { intros ->. simpl in E2. lia. }
  - lia.
  - intros [first middle] m1 (O & L' & R' & HO & TT & HM & SL' & SR' & -> & -> & HL & NL & NR).
    destruct L' as [|x L']; [congruence|]. clear NL. pose proof TT as T'. apply seg_app in TT as [TO TT]. pose proof TT as TLR. apply seg_app in TT as [TL TR]. pose proof TL as TL'. apply seg_cons in TL' as [Gx _].
    apply wp_bind. eapply wp_get; [exact Gx|]. apply wp_bind.
    destruct (split_lower comp proj HW R' x SR') as (u & v & -> & HU & HV).
    eapply lower_bound_region; [exact TR|rewrite !app_length in *; lia|exact HU|exact HV|]. cbv zeta.
    assert (O ++ u ++ merge lt (x :: L') v = merge lt L R) as HM'.
    { rewrite <- HM. f_equal. symmetry. apply merge_start_r. intros x' y' Hx' Hy'. eapply lt_le_trans; [exact HW|exact (HU y' Hy')|]. eapply sorted_head_min; eauto. }
    rewrite app_length in HL. apply wp_bind. eapply rotate_region with (p := x :: L') (r := u); [|reflexivity|lia|].
    { rewrite app_assoc in TLR. apply seg_app in TLR. tauto. }
    intros m2 TU O2. assert (only (within f (length L + length R)) m m2) as HO2 by (eapply only_trans; [exact HO|]; eapply only_weaken; [exact O2|]; win).
    apply seg_app in TR as [_ TV]. assert (seg m2 f (O ++ u ++ (x :: L') ++ v)) as T2.
    { apply seg_app. split; [keep O2 TO|]. rewrite app_assoc. apply seg_app. split; [exact TU|]. rewrite app_length. keep O2 TV. }
    destruct (Nat.eqb_spec (f + length L + length R) (f + length O + length (x :: L') + length u)) as [E|E].
    { destruct v; [|simpl in *; lia]. apply wp_ret. apply HQ; auto. rewrite <- HM'. now rewrite merge_nil_r, app_nil_r in *. }
    assert (v <> []) as NV. { intros ->. simpl in *. lia. }
    apply wp_bind. pose proof TU as TU'. apply seg_app in TU' as [_ TXL]. pose proof TXL as TX. apply seg_cons in TX as [Gx2 _].
    replace (f + length O + length (x :: L') + length u - (f + length O + length (x :: L'))) with (length u) by lia. eapply wp_get; [exact Gx2|].
    apply wp_bind. destruct (split_upper comp proj HW (x :: L') x SL') as (p & q & EP & HP & HQ2). rewrite EP in *.
    assert (In x p) as Hxp. { destruct p as [|a p]; [|injection EP as <- _; now left]. exfalso. simpl in EP. subst q. specialize (HQ2 x ltac:(now left)). rewrite (lt_irrefl lt HW) in HQ2. discriminate. }
    eapply upper_bound_region; [exact TXL|rewrite !app_length in *; lia|exact HP|exact HQ2|].
    assert (O ++ u ++ p ++ merge lt q v = merge lt L R) as HM2.
    { rewrite <- HM'. f_equal. f_equal. symmetry. apply merge_start_l. intros x' y' Hx Hy. destruct (lt y' x') eqn:EL; auto. exfalso.
      assert (lt y' x = true) by (eapply lt_le_trans; [exact HW|exact EL|]; exact (HP x' Hx)). rewrite (HV _ Hy) in H. discriminate. }
    rewrite app_length in *. destruct p as [|p0 p]; [easy|].
    match goal with |- wp (if ?c then _ else _) _ _ => destruct c eqn:EE end.
    + apply Nat.eqb_eq in EE. destruct q; [|simpl in *; lia]. apply wp_ret. apply HQ; auto. rewrite <- HM2. rewrite merge_nil_l. now rewrite app_nil_r in T2.
    + apply Nat.eqb_neq in EE. apply wp_ret. split; [|simpl in *; lia]. exists (O ++ u ++ p0 :: p), q, v. cj; auto.
      * now rewrite <- !app_assoc in *.
      * rewrite <- HM2. now rewrite <- !app_assoc.
      * now apply sorted_app_r in SL'.
      * now apply sorted_app_r in SR'.
      * rewrite ?app_length; simpl in *; lia.
      * rewrite ?app_length; simpl in *; lia.
      * rewrite ?app_length; simpl in *; lia.
      * intros ->. simpl in *. lia.
Qed.

Lemma insertion_sort_region : forall xs m f l (Q : unit -> mem A -> Prop), seg m f xs -> l = f + length xs ->
  (forall m', seg m' f (ssort lt xs) -> only (within f (length xs)) m m' -> Q tt m') -> wp (insertion_sort comp proj f l) Q m.
Proof.
  intros xs m f l Q S1 -> HQ. apply seg_replace in S1 as (pre & post & -> & <- & HR). apply insertion_sort_stab; auto. intros ys HS.
  pose proof (stab_length _ _ _ _ HS) as HL. destruct (HR ys HL) as [TT OO]. apply HQ; auto. destruct HS as [_ HS]. rewrite <- HS; auto.
Qed.

(** * The merges through the cache *)
Lemma list_ends : forall X (l : list X), l <> [] -> (exists x t, l = x :: t) /\ (exists t x, l = t ++ [x]).
Proof. intros X l H. split; [destruct l; [congruence|eauto]|now apply last_split]. Qed.
Lemma seg_first : forall m f x t, seg m f (x :: t) -> nth_error m f = Some (Val x).
Proof. intros m f x t H. apply seg_cons in H. tauto. Qed.
Lemma seg_last : forall m f x t, seg m f (t ++ [x]) -> nth_error m (f + length (t ++ [x]) - 1) = Some (Val x).
Proof. intros m f x t H. apply seg_app in H as [_ H]. apply seg_cons in H as [H _]. rewrite app_length. simpl. eapply nth_eq; [exact H|lia]. Qed.

Lemma sorted_join : forall l1 l2 t x y u, l1 = t ++ [x] -> l2 = y :: u -> sorted lt l1 -> sorted lt l2 -> lt y x = false -> sorted lt (l1 ++ l2).
Proof. intros l1 l2 t x y u -> -> O1 O2 E. rewrite <- (ssort_in_order comp proj HC t x u y) by auto. apply (ssort_sorted lt HW). Qed.

Lemma merge_to_region : forall l1 l2 m f r1 r2 r (Q : option unit -> mem A -> Prop), sorted lt l1 -> sorted lt l2 -> l1 <> [] -> l2 <> [] -> seg m f (l1 ++ l2) ->
  r1 = (f, f + length l1) -> r2 = (f + length l1, f + length l1 + length l2) -> lives m r (length l1 + length l2) -> apart f (length l1 + length l2) r (length l1 + length l2) ->
  (forall m', seg m' r (ssort lt (l1 ++ l2)) -> lives m' f (length l1 + length l2) ->
     only (fun i => within f (length l1 + length l2) i \/ within r (length l1 + length l2) i) m m' -> Q (Some tt) m') ->
  (sorted lt (l1 ++ l2) -> Q None m) -> wp (merge_to comp proj r1 r2 r) Q m.
Proof.
  intros l1 l2 m f r1 r2 r Q O1 O2 N1 N2 S12 -> -> LR AP HQ1 HQ2. unfold merge_to, len, start, end_. simpl fst. simpl snd.
  destruct (list_ends _ l1 N1) as [(x0 & l1' & EF1) (l1'' & x1 & EL1)]. destruct (list_ends _ l2 N2) as [(y0 & l2' & EF2) (l2'' & y1 & EL2)].
  pose proof S12 as S12'. apply seg_app in S12' as [S1 S2].
  assert (nth_error m f = Some (Val x0)) as GX0 by (rewrite EF1 in S1; now apply seg_first in S1).
  assert (nth_error m (f + length l1 - 1) = Some (Val x1)) as GX1 by (rewrite EL1 in S1 |- *; now apply seg_last in S1).
  assert (nth_error m (f + length l1) = Some (Val y0)) as GY0 by (rewrite EF2 in S2; now apply seg_first in S2).
  assert (nth_error m (f + length l1 + length l2 - 1) = Some (Val y1)) as GY1 by (rewrite EL2 in S2 |- *; now apply seg_last in S2).
  apply wp_bind. eapply comp_at_wp; [exact GY1|exact GX0|]. replace (f + length l1 + length l2 - (f + length l1)) with (length l2) by lia.
  destruct (lt y1 x0) eqn:E1.
  - apply wp_bind. apply move_range_region with (xs := l1); auto; try win. { eapply lives_sub; [exact LR|win|win]. }
    intros m1 H1 H2 H3. apply wp_bind. apply move_range_region with (xs := l2); auto; try win.
    { eapply seg_only; [exact H3| |exact S2]; win. } { eapply lives_only; [exact H3| |eapply lives_sub; [exact LR|win|win]]; win. }
    intros m2 H4 H5 H6. apply wp_ret. apply HQ1.
    + replace (ssort lt (l1 ++ l2)) with (l2 ++ l1). 2:{ rewrite EF1, EL2. symmetry. apply ssort_swapped; auto; [now rewrite <- EF1|now rewrite <- EL2]. }
      apply seg_app. split; auto. keep H6 H1.
    + apply lives_app; auto. keep H6 H2.
    + eapply only_trans; (eapply only_weaken; [eassumption|]); win.
  - apply wp_bind. eapply comp_at_wp; [exact GY0|exact GX1|]. destruct (lt y0 x1) eqn:E2.
    + apply wp_bind. apply merge_move_region with (l1 := l1) (l2 := l2); auto; try win. intros m1 H1 H2 H3 H4. apply wp_ret. apply HQ1.
      * rewrite ssort_pair; auto.
      * apply lives_app; auto.
      * eapply only_weaken; [exact H4|]; win.
    + apply wp_ret. apply HQ2. eapply sorted_join; eauto.
Qed.

Lemma ssort_app_l : forall xs ys, ssort lt (ssort lt xs ++ ys) = ssort lt (xs ++ ys).
Proof. intros. symmetry. apply ssort_same_eq; auto. apply same_app; [apply ssort_same; auto|apply same_refl]. Qed.
Lemma ssort_app_r : forall xs ys, ssort lt (xs ++ ssort lt ys) = ssort lt (xs ++ ys).
Proof. intros. symmetry. apply ssort_same_eq; auto. apply same_app; [apply same_refl|apply ssort_same; auto]. Qed.
Lemma ssort_app_both : forall xs ys, ssort lt (ssort lt xs ++ ssort lt ys) = ssort lt (xs ++ ys).
Proof. intros. now rewrite ssort_app_l, ssort_app_r. Qed.
Lemma ssort_ne : forall xs, xs <> [] -> ssort lt xs <> [].
Proof. intros xs H E. apply H. apply length_zero_iff_nil. rewrite <- (ssort_length lt), E. auto. Qed.

(** Two sorted ranges, merged to [r] or moved there. *)
Lemma merge_to_or_move : forall l1 l2 m f r1 r2 r l (Q : unit -> mem A -> Prop), sorted lt l1 -> sorted lt l2 -> l1 <> [] -> l2 <> [] -> seg m f (l1 ++ l2) ->
  r1 = (f, f + length l1) -> r2 = (f + length l1, f + length l1 + length l2) -> lives m r (length l1 + length l2) -> apart f (length l1 + length l2) r (length l1 + length l2) ->
  l = f + length l1 + length l2 ->
  (forall m', seg m' r (ssort lt (l1 ++ l2)) -> lives m' f (length l1 + length l2) ->
     only (fun i => within f (length l1 + length l2) i \/ within r (length l1 + length l2) i) m m' -> Q tt m') ->
  wp (let* r' := merge_to comp proj r1 r2 r in match r' with Some _ => ret tt | None => let* _ := move_range f l r in ret tt end) Q m.
Proof.
  intros l1 l2 m f r1 r2 r l Q O1 O2 N1 N2 S12 E1 E2 LR AP -> HQ. apply wp_bind. eapply merge_to_region; [exact O1|exact O2|exact N1|exact N2|exact S12|exact E1|exact E2|exact LR|exact AP| |]. { intros m' H1 H2 H3. apply wp_ret. auto. }
  intros HS. apply wp_bind. apply move_range_region with (xs := l1 ++ l2); rewrite ?app_length; auto; try win. intros m' H1 H2 H3. apply wp_ret. apply HQ; auto.
  rewrite ssort_id; auto.
Qed.

Lemma merge_four_region : forall a b c d m f A1 B1 A2 B2 cb K (Q : unit -> mem A -> Prop), sorted lt a -> sorted lt b -> sorted lt c -> sorted lt d ->
  a <> [] -> b <> [] -> c <> [] -> d <> [] -> seg m f (a ++ b ++ c ++ d) ->
  A1 = (f, f + length a) -> B1 = (f + length a, f + length a + length b) -> A2 = (f + length a + length b, f + length a + length b + length c) ->
  B2 = (f + length a + length b + length c, f + length a + length b + length c + length d) ->
  lives m cb K -> length a + length b + length c + length d <= K -> apart f (length a + length b + length c + length d) cb K ->
  (forall m', seg m' f (ssort lt (a ++ b ++ c ++ d)) -> lives m' cb K ->
     only (fun i => within f (length a + length b + length c + length d) i \/ within cb K i) m m' -> Q tt m') ->
  wp (merge_four comp proj A1 B1 A2 B2 cb) Q m.
Proof.
  intros a b c d m f A1 B1 A2 B2 cb K Q Oa Ob Oc Od Na Nb Nc Nd S -> -> -> -> LC HK AP HQ. unfold merge_four.
  set (P := fun i => within f (length a + length b + length c + length d) i \/ within cb K i) in *.
  pose proof S as S'. rewrite app_assoc in S'. apply seg_app in S' as [Sab Scd]. rewrite app_length in Scd.
  (* the rest, from the first merge on *)
  assert (REST : forall m1, only P m m1 -> seg m1 cb (ssort lt (a ++ b)) -> seg m1 (f + (length a + length b)) (c ++ d) -> lives m1 f (length a + length b) -> lives m1 cb K ->
    wp (let* r := merge_to comp proj (f + length a + length b, f + length a + length b + length c) (f + length a + length b + length c, f + length a + length b + length c + length d)
          (cb + (length a + length b)) in
        (match r with Some _ => ret tt | None => let* _ := move_range (f + length a + length b) (f + length a + length b + length c + length d) (cb + (length a + length b)) in ret tt end) ;;
        let* r := merge_to comp proj (cb, cb + (length a + length b)) (cb + (length a + length b), cb + (length a + length b + (length c + length d))) f in
        match r with Some _ => ret tt | None => let* _ := move_range cb (cb + (length a + length b + (length c + length d))) f in ret tt end) Q m1).
  { intros m1 HO Tab Tcd LF LC1.
    apply wp_assoc.     apply wp_bind. eapply merge_to_or_move with (l1 := c) (l2 := d); [exact Oc|exact Od|exact Nc|exact Nd|have Tcd|f_equal; lia|f_equal; lia| |win|lia|].
    { eapply lives_sub; [exact LC1|lia|lia]. }
    intros m2 H1 H2 H3. cbv beta.
    eapply merge_to_or_move with (l1 := ssort lt (a ++ b)) (l2 := ssort lt (c ++ d)) (f := cb);
      rewrite ?ssort_length, ?app_length; [apply (ssort_sorted lt HW)|apply (ssort_sorted lt HW)| | | | |f_equal; lia| |win|lia|].
    - apply ssort_ne. destruct a; [congruence|discriminate].
    - apply ssort_ne. destruct c; [congruence|discriminate].
    - apply seg_app. rewrite ssort_length, app_length. split; auto. eapply seg_eq; [eapply seg_only; [exact H3| |exact Tab]; rewrite ssort_length, app_length; win|auto].
    - reflexivity.
    - replace (length a + length b + (length c + length d)) with (length a + length b + (length c + length d)) by lia. apply lives_app; [keep H3 LF|].
      replace (f + (length a + length b)) with (f + length a + length b) by lia. auto.
    - intros m3 H4 H5 H6. rewrite ssort_app_both in H4. apply HQ.
      + now rewrite app_assoc.
      + eapply lives_change; [exact LC1|rewrite (proj1 H6); apply H3|]. intros i Hi Hl.
        destruct (Nat.lt_ge_cases i (cb + (length a + length b + (length c + length d)))); [eapply lives_at; [exact H5|win]|].
        eapply live_only; [exact H6| |eapply live_only; [exact H3| |exact Hl]]; win.
      + eapply only_trans; [exact HO|]. eapply only_trans; (eapply only_weaken; [eassumption|]); unfold P; win. }
  unfold len, start, end_. simpl fst. simpl snd.
  replace (f + length a + length b - f) with (length a + length b) by lia. replace (f + length a + length b + length c + length d - (f + length a + length b)) with (length c + length d) by lia.
  apply wp_bind. eapply merge_to_region with (l1 := a) (l2 := b); [exact Oa|exact Ob|exact Na|exact Nb|exact Sab|reflexivity|reflexivity| |win| |].
  { eapply lives_sub; [exact LC|lia|lia]. }
  - intros m1 H1 H2 H3. apply wp_bind, wp_ret. cbv iota. apply REST; auto.
    + eapply only_weaken; [exact H3|]. unfold P. win.
    + eapply seg_only; [exact H3| |exact Scd]. rewrite app_length. win.
    + eapply lives_change; [exact LC|apply H3|]. intros i Hi Hl. destruct (Nat.lt_ge_cases i (cb + (length a + length b))).
      * eapply lives_at; [apply seg_lives; exact H1|]. rewrite ssort_length, app_length. win.
      * eapply live_only; [exact H3| |exact Hl]; win.
  - intros Hab. pose proof S as S'. apply seg_app in S' as [Sa S']. apply seg_app in S' as [Sb S']. apply seg_app in S' as [Sc Sd].
    destruct (list_ends _ c Nc) as [(x0 & c' & EF1) (c'' & x1 & EL1)]. destruct (list_ends _ d Nd) as [(y0 & d' & EF2) (d'' & y1 & EL2)]. destruct (list_ends _ b Nb) as [_ (b'' & z1 & EL3)].
    assert (nth_error m (f + length a + length b + length c) = Some (Val y0)) as G1 by (rewrite EF2 in Sd; now apply seg_first in Sd).
    assert (nth_error m (f + length a + length b + length c - 1) = Some (Val x1)) as G2 by (rewrite EL1 in Sc |- *; now apply seg_last in Sc).
    assert (nth_error m (f + length a + length b) = Some (Val x0)) as G3 by (rewrite EF1 in Sc; now apply seg_first in Sc).
    assert (nth_error m (f + length a + length b - 1) = Some (Val z1)) as G4 by (rewrite EL3 in Sb |- *; now apply seg_last in Sb).
    assert (MOVE : wp (let* skip := (let* _ := move_range f (f + length a + length b) cb in ret false) in
       if (skip : bool) then ret tt else
       let* r := merge_to comp proj (f + length a + length b, f + length a + length b + length c) (f + length a + length b + length c, f + length a + length b + length c + length d)
          (cb + (length a + length b)) in
        (match r with Some _ => ret tt | None => let* _ := move_range (f + length a + length b) (f + length a + length b + length c + length d) (cb + (length a + length b)) in ret tt end) ;;
        let* r := merge_to comp proj (cb, cb + (length a + length b)) (cb + (length a + length b), cb + (length a + length b + (length c + length d))) f in
        match r with Some _ => ret tt | None => let* _ := move_range cb (cb + (length a + length b + (length c + length d))) f in ret tt end) Q m).
    { apply wp_bind, wp_bind. apply move_range_region with (xs := a ++ b); rewrite ?app_length; auto; try lia; try win. { eapply lives_sub; [exact LC|lia|lia]. }
      intros m1 H1 H2 H3. apply wp_ret. cbv iota. apply REST; auto.
      - eapply only_weaken; [exact H3|]. unfold P. win.
      - rewrite ssort_id; auto.
      - eapply seg_only; [exact H3| |exact Scd]. rewrite app_length. win.
      - eapply lives_change; [exact LC|apply H3|]. intros i Hi Hl. destruct (Nat.lt_ge_cases i (cb + (length a + length b))).
        + eapply lives_at; [apply seg_lives; exact H1|]. rewrite app_length. win.
        + eapply live_only; [exact H3| |exact Hl]; win. }
    apply wp_bind. apply wp_bind. eapply comp_at_wp; [exact G1|exact G2|]. destruct (lt y0 x1) eqn:E1; cbn [negb].
    + apply wp_bind, wp_ret. cbv iota. apply wp_unbind in MOVE. exact MOVE.
    + apply wp_bind, wp_bind. eapply comp_at_wp; [exact G3|exact G4|]. apply wp_ret. destruct (lt x0 z1) eqn:E2; cbn [negb]; cbv iota.
      * apply wp_unbind in MOVE. exact MOVE.
      * apply wp_ret. cbv iota. apply wp_ret. apply HQ; auto; [|apply only_refl]. rewrite ssort_id; auto.
        assert (sorted lt (c ++ d)) as Hcd by (eapply sorted_join; eauto).
        rewrite app_assoc. eapply sorted_join with (t := a ++ b'') (u := c' ++ d); eauto. { now rewrite EL3, app_assoc. } { now rewrite EF1. }
Qed.

Lemma merge_two_region : forall triv l1 l2 m f RA RB cb K (Q : unit -> mem A -> Prop), sorted lt l1 -> sorted lt l2 -> l1 <> [] -> l2 <> [] ->
  seg m f (l1 ++ l2) -> RA = (f, f + length l1) -> RB = (f + length l1, f + length l1 + length l2) -> lives m cb K ->
  Nat.min (length l1) (length l2) <= K -> apart cb K f (length l1 + length l2) ->
  (forall m', seg m' f (ssort lt (l1 ++ l2)) -> lives m' cb K -> only (fun i => within f (length l1 + length l2) i \/ within cb K i) m m' -> Q tt m') ->
  wp (merge_two comp proj triv true RA RB cb) Q m.
Proof.
  intros triv l1 l2 m f RA RB cb K Q O1 O2 N1 N2 S12 -> -> LC HK AP HQ. unfold merge_two, len, start, end_. simpl fst. simpl snd.
  destruct (list_ends _ l1 N1) as [(x0 & l1' & EF1) (l1'' & x1 & EL1)]. destruct (list_ends _ l2 N2) as [(y0 & l2' & EF2) (l2'' & y1 & EL2)].
  pose proof S12 as S12'. apply seg_app in S12' as [S1 S2].
  assert (nth_error m f = Some (Val x0)) as GX0 by (rewrite EF1 in S1; now apply seg_first in S1).
  assert (nth_error m (f + length l1 - 1) = Some (Val x1)) as GX1 by (rewrite EL1 in S1 |- *; now apply seg_last in S1).
  assert (nth_error m (f + length l1) = Some (Val y0)) as GY0 by (rewrite EF2 in S2; now apply seg_first in S2).
  assert (nth_error m (f + length l1 + length l2 - 1) = Some (Val y1)) as GY1 by (rewrite EL2 in S2 |- *; now apply seg_last in S2).
  apply wp_bind. eapply comp_at_wp; [exact GY1|exact GX0|]. destruct (lt y1 x0) eqn:E1.
  - apply wp_bind. apply rotate_region with (p := l1) (r := l2); auto. intros m1 H1 H2. apply wp_ret. apply HQ.
    + replace (ssort lt (l1 ++ l2)) with (l2 ++ l1); auto. rewrite EF1, EL2. symmetry. apply ssort_swapped; auto; [now rewrite <- EF1|now rewrite <- EL2].
    + keep H2 LC.
    + eapply only_weaken; [exact H2|]; win.
  - apply wp_bind. eapply comp_at_wp; [exact GY0|exact GX1|]. destruct (lt y0 x1) eqn:E2.
    + eapply cache_inplace_merge_region with (l1 := l1) (l2 := l2); eauto; try lia. intros m1 H1 H2 H3. apply HQ; auto. eapply only_weaken; [exact H3|]; win.
    + apply wp_ret. apply HQ; auto; [|apply only_refl]. rewrite ssort_id; auto. eapply sorted_join; eauto.
Qed.
End Merges.
