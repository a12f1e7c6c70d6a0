(** wiki_sort: the ranges of a level, and the levels merged through the cache. *)
From Coq Require Import List Arith Lia Permutation Bool.
From Verif Require Import Spec.Order Lang.Mem Spec.Sorts Proofs.Wp Proofs.OrderLib Proofs.Search Proofs.HalfMerge Proofs.Regions Proofs.SpinMerge Model.Wiki Proofs.WikiFind Proofs.WikiMerge Proofs.WikiNet.
Import ListNotations.
Local Arguments nth_error : simpl never.
Local Arguments upd : simpl never.
Local Arguments Nat.leb : simpl never.
Local Arguments Nat.ltb : simpl never.
Local Arguments Nat.div : simpl never.
Local Arguments Nat.modulo : simpl never.
Local Arguments Nat.mul : simpl never.

(** * The iterator *)
Section Iter.
Variables (n d f : nat).
Hypothesis Hd : 0 < d.
Definition st (v : nat) : nat * nat := (v / d, v mod d).
(** The boundary before the [i]th range, for the level of step [k]. *)
Definition bd (k i : nat) : nat := i * k * n / d.

Lemma st_add : forall v s, st (v + s) = if d <=? v mod d + s mod d then (S (v / d + s / d), v mod d + s mod d - d) else (v / d + s / d, v mod d + s mod d).
Proof.
  intros v s. unfold st. pose proof (Nat.div_mod v d ltac:(lia)) as Ev. pose proof (Nat.div_mod s d ltac:(lia)) as Es.
  pose proof (Nat.mod_upper_bound v d ltac:(lia)). pose proof (Nat.mod_upper_bound s d ltac:(lia)).
  set (qv := v / d) in *. set (qs := s / d) in *. set (rv := v mod d) in *. set (rs := s mod d) in *. destruct (Nat.leb_spec d (rv + rs)).
  - replace ((v + s) / d) with (S (qv + qs)) by (apply Nat.div_unique with (rv + rs - d); nia). f_equal. symmetry. apply Nat.mod_unique with (S (qv + qs)); nia.
  - replace ((v + s) / d) with (qv + qs) by (apply Nat.div_unique with (rv + rs); nia). f_equal. symmetry. apply Nat.mod_unique with (qv + qs); nia.
Qed.
Lemma next_range_st : forall v s, next_range d (s / d) (s mod d) f (st v) = ((f + v / d, f + (v + s) / d), st (v + s)).
Proof.
  intros v s. unfold next_range. unfold st at 1. pose proof (st_add v s) as E. destruct (d <=? v mod d + s mod d); rewrite E; unfold st in E; injection E as E1 E2; now rewrite E1.
Qed.
Lemma next_level_st : forall s, next_level d (st s) = st (s + s).
Proof. intros s. unfold next_level. rewrite st_add. unfold st. now destruct (d <=? s mod d + s mod d). Qed.

Hypothesis Hn : d <= n.
Lemma bd_0 : forall k, bd k 0 = 0.
Proof. intros. unfold bd. replace (0 * k * n) with 0 by lia. apply Nat.div_0_l. lia. Qed.
Lemma bd_top : forall k c, c * k = d -> bd k c = n.
Proof. intros k c H. unfold bd. rewrite H. rewrite Nat.mul_comm. apply Nat.div_mul. lia. Qed.
Lemma bd_mono : forall k i j, i <= j -> bd k i <= bd k j.
Proof. intros k i j H. unfold bd. apply Nat.div_le_mono; [lia|]. apply Nat.mul_le_mono_r, Nat.mul_le_mono_r; auto. Qed.
Lemma bd_mul : forall g k i, bd (g * k) i = bd k (g * i).
Proof. intros. unfold bd. f_equal. lia. Qed.
Lemma bd_step : forall k i, bd k i + k * n / d <= bd k (S i) <= bd k i + k * n / d + 1.
Proof.
  intros k i. unfold bd. replace (S i * k * n) with (i * k * n + k * n) by lia.
  pose proof (st_add (i * k * n) (k * n)) as E. unfold st in E. destruct (d <=? _); injection E as -> _; lia.
Qed.
Lemma bd_step_pos : forall k, 0 < k -> 0 < k * n / d.
Proof. intros k Hk. apply Nat.div_str_pos. nia. Qed.
Lemma bd_strict : forall k i, 0 < k -> bd k i < bd k (S i).
Proof. intros k i Hk. pose proof (bd_step k i). pose proof (bd_step_pos k Hk). lia. Qed.
Lemma bd_end : forall k c j, c * k = d -> (n <=? bd k j) = (c <=? j).
Proof.
  intros k c j H. assert (0 < k) by nia. destruct (Nat.leb_spec c j) as [E|E].
  - apply Nat.leb_le. rewrite <- (bd_top k c H). now apply bd_mono.
  - apply Nat.leb_gt. rewrite <- (bd_top k c H). pose proof (bd_mono k (S j) c ltac:(lia)). pose proof (bd_strict k j). lia.
Qed.

(** A loop over the ranges of a level, or over the pairs, or over the groups of four. *)
Lemma loop_ranges : forall A (body : nat * nat -> M A (nat * nat + unit)) u c (I : nat -> mem A -> Prop) (Q : unit -> mem A -> Prop) m,
  c * u = d ->
  (forall s m1 (Q' : nat * nat + unit -> mem A -> Prop), n <= fst s -> Q' (inr tt) m1 -> wp (body s) Q' m1) ->
  (forall j m1 (Q' : nat * nat + unit -> mem A -> Prop), j < c -> I j m1 -> bd u j < n -> (forall m2, I (S j) m2 -> Q' (inl (st (S j * u * n))) m2) -> wp (body (st (j * u * n))) Q' m1) ->
  I 0 m -> (forall m', I c m' -> Q tt m') -> wp (loop (S n) body (0, 0)) Q m.
Proof.
  intros A body u c I Q m HC HE HB H0 HQ. assert (0 < u) by nia.
  apply wp_loop' with (I := fun s m1 => exists j, s = st (j * u * n) /\ j <= c /\ I j m1) (mu := fun s => n - fst s).
  - exists 0. cj; auto; try lia. unfold st. replace (0 * u * n) with 0 by lia. rewrite Nat.div_0_l, Nat.mod_0_l; auto; lia.
  - simpl. lia.
  - intros s m1 (j & -> & Hj & HI). destruct (Nat.eq_dec j c) as [->|NE].
    + apply HE; auto. unfold st. simpl fst. change (c * u * n / d) with (bd u c). rewrite bd_top; auto.
    + pose proof (bd_end u c j HC) as E. destruct (Nat.leb_spec c j); [lia|]. apply Nat.leb_gt in E. apply HB; auto. intros m2 HI2. split.
      * exists (S j). cj; auto.
      * unfold st. simpl fst. change (S j * u * n / d) with (bd u (S j)). change (j * u * n / d) with (bd u j). pose proof (bd_strict u j). lia.
Qed.

Definition chunk {A} (xs : list A) (k i : nat) : list A := firstn (bd k (S i) - bd k i) (skipn (bd k i) xs).
Lemma chunk_length : forall A (xs : list A) k c i, length xs = n -> c * k = d -> i < c -> length (chunk xs k i) = bd k (S i) - bd k i.
Proof.
  intros A xs k c i HL HC Hi. unfold chunk. rewrite firstn_length, skipn_length. pose proof (bd_mono k (S i) c ltac:(lia)). rewrite (bd_top k c HC) in *. lia.
Qed.
Lemma skipn_split : forall X (l : list X) a b, skipn a l = firstn b (skipn a l) ++ skipn (a + b) l.
Proof. intros. rewrite <- skipn_skipn. now rewrite firstn_skipn. Qed.
Lemma slice_app : forall X (l : list X) a b c, a <= b -> b <= c -> c <= length l -> firstn (c - a) (skipn a l) = firstn (b - a) (skipn a l) ++ firstn (c - b) (skipn b l).
Proof.
  intros X l a b c H1 H2 H3. rewrite (skipn_split _ l a (b - a)) at 1. replace (a + (b - a)) with b by lia. rewrite firstn_app. rewrite firstn_firstn. f_equal.
  - f_equal. lia.
  - f_equal. rewrite firstn_length, skipn_length. lia.
Qed.
Lemma chunk_two : forall A (xs : list A) k c i, length xs = n -> c * (2 * k) = d -> i < c -> chunk xs (2 * k) i = chunk xs k (2 * i) ++ chunk xs k (2 * i + 1).
Proof.
  intros A xs k c i HL HC Hi. unfold chunk. rewrite !bd_mul. replace (2 * S i) with (S (2 * i + 1)) by lia. replace (S (2 * i)) with (2 * i + 1) by lia.
  pose proof (bd_mono k (S (2 * i + 1)) (2 * c) ltac:(lia)) as H. rewrite <- bd_mul, (bd_top (2 * k) c HC) in H.
  apply slice_app; [apply bd_mono; lia|apply bd_mono; lia|lia].
Qed.
Lemma chunk_top : forall A (xs : list A), length xs = n -> chunk xs d 0 = xs.
Proof.
  intros A xs HL. unfold chunk. rewrite bd_0, (bd_top d 1) by lia. simpl. rewrite Nat.sub_0_r, <- HL. apply firstn_all.
Qed.
Lemma chunk_ne : forall A (xs : list A) k c i, length xs = n -> c * k = d -> i < c -> chunk xs k i <> [].
Proof. intros A xs k c i HL HC Hi E. pose proof (chunk_length A xs k c i HL HC Hi) as H. rewrite E in H. simpl in H. pose proof (bd_strict k i). nia. Qed.
Lemma seg_chunk : forall A (xs : list A) m k c i, length xs = n -> c * k = d -> i < c -> seg m f xs -> seg m (f + bd k i) (chunk xs k i).
Proof.
  intros A xs m k c i HL HC Hi HS. pose proof (chunk_length A xs k c i HL HC Hi) as LC. pose proof (bd_mono k (S i) c ltac:(lia)) as H. rewrite (bd_top k c HC) in H.
  pose proof (bd_mono k i (S i) ltac:(lia)).
  rewrite <- (firstn_skipn (bd k i) xs) in HS. apply seg_app in HS as [_ HS]. rewrite firstn_length in HS. replace (Nat.min (bd k i) (length xs)) with (bd k i) in HS by lia.
  rewrite <- (firstn_skipn (bd k (S i) - bd k i) (skipn (bd k i) xs)) in HS. apply seg_app in HS as [HS _]. exact HS.
Qed.
End Iter.

(** * The levels *)
Section Levels.
Context {A T : Type} (comp : T -> T -> bool) (proj : A -> T) (triv : bool).
Local Notation lt := (by_proj comp proj).
Implicit Types (m : mem A).
Hypothesis HC : strict_weak_order comp.
Let HW : strict_weak_order lt := swo_by_proj _ _ comp proj HC.
Variables (n d f cb K : nat) (xs : list A).
Hypothesis Hd : 0 < d.
Hypothesis Hn : d <= n.
Hypothesis HL : length xs = n.
Hypothesis AP : apart f n cb K.
Variable m0 : mem A.
Notation bd := (bd n d).
Notation st := (st d).
Notation chunk := (chunk n d xs).

(** What surrounds the collection and the cache does not change; the elements of the cache are alive. *)
Definition base m : Prop := only (fun i => within f n i \/ within cb K i) m0 m /\ lives m cb K.
(** The ranges of the level of step [k], sorted. *)
Definition row m (k i : nat) : Prop := seg m (f + bd k i) (ssort lt (chunk k i)).
Definition level m (k c : nat) : Prop := base m /\ forall i, i < c -> row m k i.

Lemma bd_le : forall k c i, c * k = d -> i <= c -> bd k i <= n.
Proof. intros k c i H Hi. pose proof (bd_mono n d Hd Hn k i c Hi) as H'. now rewrite (bd_top n d Hd Hn k c H) in H'. Qed.
Lemma clen : forall k c i, c * k = d -> i < c -> length (chunk k i) = bd k (S i) - bd k i.
Proof. intros. eapply chunk_length; eauto. Qed.

(** A step that works on one group of ranges and on the cache leaves the other ranges alone. *)
Lemma base_step : forall m m' a w, base m -> only (fun i => within (f + a) w i \/ within cb K i) m m' -> a + w <= n -> lives m' cb K -> base m'.
Proof. intros m m' a w [H1 H2] HO HA HV. split; auto. eapply only_trans; [exact H1|]. eapply only_weaken; [exact HO|]. win. Qed.
Lemma seg_step : forall m m' a w b ys, only (fun i => within (f + a) w i \/ within cb K i) m m' -> seg m (f + b) ys -> b + length ys <= n -> b + length ys <= a \/ a + w <= b -> seg m' (f + b) ys.
Proof. intros m m' a w b ys HO HS HB HD. eapply seg_only; [exact HO| |exact HS]. win. Qed.

Lemma row_len : forall k c i, c * k = d -> i < c -> bd k i + length (ssort lt (chunk k i)) = bd k (S i).
Proof. intros k c i H Hi. rewrite ssort_length, (clen k c i H Hi). pose proof (bd_mono n d Hd Hn k i (S i) ltac:(lia)). lia. Qed.
Lemma row_step : forall m m' u g k c i j, u = g * k -> c * u = d -> only (fun i => within (f + bd u j) (bd u (S j) - bd u j) i \/ within cb K i) m m' ->
  i < g * c -> i < g * j \/ g * S j <= i -> row m k i -> row m' k i.
Proof.
  intros m m' u g k c i j -> HD HO Hi Hij HR. assert (g * c * k = d) as HD' by nia. pose proof (row_len k (g * c) i HD' Hi) as RL. pose proof (bd_le k (g * c) (S i) HD' ltac:(lia)).
  pose proof (bd_mono n d Hd Hn k i (S i) ltac:(lia)). rewrite !(bd_mul n d Hd Hn) in HO.
  eapply seg_step; [exact HO|exact HR|lia|]. destruct Hij as [Hij|Hij].
  - left. pose proof (bd_mono n d Hd Hn k (S i) (g * j) ltac:(lia)). lia.
  - right. pose proof (bd_mono n d Hd Hn k (g * S j) i ltac:(lia)). pose proof (bd_mono n d Hd Hn k (g * j) (g * S j) ltac:(lia)). lia.
Qed.

Lemma sort_groups_wp : forall m (Q : unit -> mem A -> Prop), base m -> seg m f xs -> 4 <= n / d -> n < 8 * d -> (forall m', level m' 1 d -> Q tt m') ->
  wp (sort_groups comp proj f n d (n / d) (n mod d)) Q m.
Proof.
  intros m Q HB HS H4 H8 HQ. unfold sort_groups.
  apply loop_ranges with (d := d) (u := 1) (c := d) (I := fun j m1 => base m1 /\ (forall i, i < j -> row m1 1 i) /\ (forall i, j <= i < d -> seg m1 (f + bd 1 i) (chunk 1 i))); auto; try lia.
  - intros s m1 Q' HE HQ'. apply Nat.leb_le in HE. rewrite HE. now apply wp_ret.
  - intros j m1 Q' Hj (B1 & R1 & S1) HJ HQ'. change (fst (st (j * 1 * n))) with (bd 1 j). apply Nat.leb_gt in HJ. rewrite HJ.
    rewrite next_range_st by auto. replace (j * 1 * n + n) with (S j * 1 * n) by lia. change (j * 1 * n / d) with (bd 1 j). change (S j * 1 * n / d) with (bd 1 (S j)).
    unfold start, len. simpl fst. simpl snd.
    pose proof (bd_step n d Hd Hn 1 j) as BS. rewrite Nat.mul_1_l in BS. pose proof (clen 1 d j ltac:(lia) Hj) as CL. pose proof (bd_le 1 d (S j) ltac:(lia) ltac:(lia)).
    assert (n / d < 8) by (apply Nat.div_lt_upper_bound; lia).
    unfold len, start, end_. simpl fst. simpl snd. replace (f + bd 1 (S j) - (f + bd 1 j)) with (length (chunk 1 j)) by lia.
    apply wp_bind. eapply group_region; [exact HC|lia|apply S1; lia|]. intros m2 S2 O2. apply wp_ret. apply HQ'.
    assert (only (fun i => within (f + bd 1 j) (bd 1 (S j) - bd 1 j) i \/ within cb K i) m1 m2) as O2' by (eapply only_weaken; [exact O2|]; win).
    cj.
    + eapply base_step; [exact B1|exact O2'|lia|]. destruct B1 as [_ LC]. keep O2 LC.
    + intros i Hi. destruct (Nat.eq_dec i j) as [->|]; [exact S2|]. eapply row_step with (g := 1) (u := 1) (c := d) (j := j); [lia|lia|exact O2'|lia|lia|apply R1; lia].
    + intros i Hi. pose proof (clen 1 d i ltac:(lia) ltac:(lia)). pose proof (bd_le 1 d (S i) ltac:(lia) ltac:(lia)). pose proof (bd_mono n d Hd Hn 1 (S j) i ltac:(lia)). pose proof (bd_mono n d Hd Hn 1 i (S i) ltac:(lia)).
      eapply seg_step; [exact O2'|apply S1; lia|lia|lia].
  - cj; auto. { intros; lia. } intros i Hi. apply seg_chunk with (c := d); auto; lia.
  - intros m' (B1 & R1 & _). apply HQ. split; auto.
Qed.

Lemma merge_twos_wp : forall k c m (Q : unit -> mem A -> Prop), c * (2 * k) = d -> k * n / d < K -> level m k (2 * c) -> (forall m', level m' (2 * k) c -> Q tt m') ->
  wp (merge_twos comp proj triv true f n d (k * n / d) (k * n mod d) cb) Q m.
Proof.
  intros k c m Q HD HK [HB HR] HQ. unfold merge_twos. assert (2 * c * k = d) as HD' by lia.
  apply loop_ranges with (d := d) (u := 2 * k) (c := c) (I := fun j m1 => base m1 /\ (forall i, i < j -> row m1 (2 * k) i) /\ (forall i, 2 * j <= i < 2 * c -> row m1 k i)); auto; try lia.
  - intros s m1 Q' HE HQ'. apply Nat.leb_le in HE. rewrite HE. now apply wp_ret.
  - intros j m1 Q' Hj (B1 & R1 & S1) HJ HQ'. change (fst (st (j * (2 * k) * n))) with (bd (2 * k) j). apply Nat.leb_gt in HJ. rewrite HJ.
    rewrite !next_range_st by auto. replace (j * (2 * k) * n + k * n + k * n) with (S j * (2 * k) * n) by lia. change (j * (2 * k) * n / d) with (bd (2 * k) j). change (S j * (2 * k) * n / d) with (bd (2 * k) (S j)).
    replace (j * (2 * k) * n + k * n) with (S (2 * j) * k * n) by lia. change (S (2 * j) * k * n / d) with (bd k (S (2 * j))).
    rewrite !(bd_mul n d Hd Hn 2 k) in *. replace (2 * S j) with (S (2 * j + 1)) in * by lia. replace (S (2 * j)) with (2 * j + 1) in * by lia.
    pose proof (row_len k (2 * c) (2 * j) HD' ltac:(lia)) as L1. pose proof (row_len k (2 * c) (2 * j + 1) HD' ltac:(lia)) as L2. replace (S (2 * j)) with (2 * j + 1) in * by lia.
    pose proof (bd_le k (2 * c) (S (2 * j + 1)) HD' ltac:(lia)). pose proof (bd_step n d Hd Hn k (2 * j)) as BS. replace (S (2 * j)) with (2 * j + 1) in * by lia.
    apply wp_bind. eapply merge_two_region with (l1 := ssort lt (chunk k (2 * j))) (l2 := ssort lt (chunk k (2 * j + 1))) (f := f + bd k (2 * j)) (K := K);
      [exact HC|apply (ssort_sorted lt HW)|apply (ssort_sorted lt HW)|apply ssort_ne; eapply chunk_ne; [exact Hd|exact Hn|exact HL|exact HD'|lia]|apply ssort_ne; eapply chunk_ne; [exact Hd|exact Hn|exact HL|exact HD'|lia]| |f_equal; lia|f_equal; lia|apply B1|lia|win|].
    + apply seg_app. split; [apply S1; lia|]. pose proof (S1 (2 * j + 1) ltac:(lia)) as H0. have H0.
    + intros m2 S2 LC2 O2. apply wp_ret. apply HQ'.
      replace (length (ssort lt (chunk k (2 * j))) + length (ssort lt (chunk k (2 * j + 1)))) with (bd k (S (2 * j + 1)) - bd k (2 * j)) in O2 by lia.
      assert (only (fun i => within (f + bd (2 * k) j) (bd (2 * k) (S j) - bd (2 * k) j) i \/ within cb K i) m1 m2) as O2' by (rewrite !(bd_mul n d Hd Hn); replace (2 * S j) with (S (2 * j + 1)) by lia; exact O2).
      cj.
      * eapply base_step; [exact B1|exact O2|lia|exact LC2].
      * intros i Hi. destruct (Nat.eq_dec i j) as [->|].
        -- unfold row. rewrite (chunk_two n d Hd Hn A xs k c j) by auto. rewrite (bd_mul n d Hd Hn). rewrite <- (ssort_app_both comp proj HC). exact S2.
        -- eapply row_step with (g := 1) (u := 2 * k) (c := c) (j := j); [lia|lia|exact O2'|lia|lia|apply R1; lia].
      * intros i Hi. eapply row_step with (g := 2) (u := 2 * k) (c := c) (j := j); [lia|lia|exact O2'|lia|lia|apply S1; lia].
  - cj; auto. { intros; lia. } intros i Hi. apply HR. lia.
  - intros m' (B1 & R1 & _). apply HQ. split; auto.
Qed.

Lemma merge_fours_wp : forall k c m (Q : unit -> mem A -> Prop), c * (4 * k) = d -> (k * n / d + 1) * 4 <= K -> level m k (4 * c) -> (forall m', level m' (4 * k) c -> Q tt m') ->
  wp (merge_fours comp proj f n d (k * n / d) (k * n mod d) cb) Q m.
Proof.
  intros k c m Q HD HK [HB HR] HQ. unfold merge_fours. assert (4 * c * k = d) as HD' by lia.
  apply loop_ranges with (d := d) (u := 4 * k) (c := c) (I := fun j m1 => base m1 /\ (forall i, i < j -> row m1 (4 * k) i) /\ (forall i, 4 * j <= i < 4 * c -> row m1 k i)); auto; try lia.
  - intros s m1 Q' HE HQ'. apply Nat.leb_le in HE. rewrite HE. now apply wp_ret.
  - intros j m1 Q' Hj (B1 & R1 & S1) HJ HQ'. change (fst (st (j * (4 * k) * n))) with (bd (4 * k) j). apply Nat.leb_gt in HJ. rewrite HJ.
    rewrite !next_range_st by auto.
    replace (j * (4 * k) * n + k * n + k * n + k * n + k * n) with (S j * (4 * k) * n) by lia.
    replace (j * (4 * k) * n + k * n + k * n + k * n) with ((4 * j + 3) * k * n) by lia. replace (j * (4 * k) * n + k * n + k * n) with ((4 * j + 2) * k * n) by lia.
    replace (j * (4 * k) * n + k * n) with ((4 * j + 1) * k * n) by lia.
    change (j * (4 * k) * n / d) with (bd (4 * k) j). change (S j * (4 * k) * n / d) with (bd (4 * k) (S j)).
    change ((4 * j + 1) * k * n / d) with (bd k (4 * j + 1)). change ((4 * j + 2) * k * n / d) with (bd k (4 * j + 2)). change ((4 * j + 3) * k * n / d) with (bd k (4 * j + 3)).
    rewrite !(bd_mul n d Hd Hn 4 k) in *. replace (4 * S j) with (4 * j + 4) in * by lia.
    pose proof (row_len k (4 * c) (4 * j) HD' ltac:(lia)) as L1. pose proof (row_len k (4 * c) (4 * j + 1) HD' ltac:(lia)) as L2. pose proof (row_len k (4 * c) (4 * j + 2) HD' ltac:(lia)) as L3. pose proof (row_len k (4 * c) (4 * j + 3) HD' ltac:(lia)) as L4.
    pose proof (bd_step n d Hd Hn k (4 * j)) as BS1. pose proof (bd_step n d Hd Hn k (4 * j + 1)) as BS2. pose proof (bd_step n d Hd Hn k (4 * j + 2)) as BS3. pose proof (bd_step n d Hd Hn k (4 * j + 3)) as BS4.
    replace (S (4 * j)) with (4 * j + 1) in * by lia. replace (S (4 * j + 1)) with (4 * j + 2) in * by lia. replace (S (4 * j + 2)) with (4 * j + 3) in * by lia. replace (S (4 * j + 3)) with (4 * j + 4) in * by lia.
    pose proof (bd_le k (4 * c) (4 * j + 4) HD' ltac:(lia)).
    apply wp_bind. eapply merge_four_region with (a := ssort lt (chunk k (4 * j))) (b := ssort lt (chunk k (4 * j + 1))) (c := ssort lt (chunk k (4 * j + 2))) (d := ssort lt (chunk k (4 * j + 3)))
      (f := f + bd k (4 * j)) (K := K); [exact HC|apply (ssort_sorted lt HW)..| | | | | |f_equal; lia|f_equal; lia|f_equal; lia|f_equal; lia|apply B1|lia|win|].
    1,2,3,4: apply ssort_ne; eapply chunk_ne; [exact Hd|exact Hn|exact HL|exact HD'|lia].
    + apply seg_app. split; [apply S1; lia|]. apply seg_app. split; [pose proof (S1 (4 * j + 1) ltac:(lia)) as H0; have H0|].
      apply seg_app. split; [pose proof (S1 (4 * j + 2) ltac:(lia)) as H0; have H0|]. pose proof (S1 (4 * j + 3) ltac:(lia)) as H0; have H0.
    + intros m2 S2 LC2 O2. apply wp_ret. apply HQ'.
      match type of O2 with only (fun i => within _ ?e i \/ _) _ _ => replace e with (bd k (4 * j + 4) - bd k (4 * j)) in O2 by lia end.
      assert (only (fun i => within (f + bd (4 * k) j) (bd (4 * k) (S j) - bd (4 * k) j) i \/ within cb K i) m1 m2) as O2' by (rewrite !(bd_mul n d Hd Hn); replace (4 * S j) with (4 * j + 4) by lia; exact O2).
      cj.
      * eapply base_step; [exact B1|exact O2|lia|exact LC2].
      * intros i Hi. destruct (Nat.eq_dec i j) as [->|].
        -- unfold row. replace (4 * k) with (2 * (2 * k)) by lia. rewrite (chunk_two n d Hd Hn A xs (2 * k) c j) by (auto; lia).
           rewrite (chunk_two n d Hd Hn A xs k (2 * c) (2 * j)), (chunk_two n d Hd Hn A xs k (2 * c) (2 * j + 1)) by (auto; lia).
           replace (2 * (2 * j)) with (4 * j) by lia. replace (2 * (2 * j + 1)) with (4 * j + 2) by lia. replace (4 * j + 2 + 1) with (4 * j + 3) by lia.
           rewrite !(bd_mul n d Hd Hn). replace (2 * (2 * j)) with (4 * j) by lia.
           replace (ssort lt ((chunk k (4 * j) ++ chunk k (4 * j + 1)) ++ chunk k (4 * j + 2) ++ chunk k (4 * j + 3)))
             with (ssort lt (ssort lt (chunk k (4 * j)) ++ ssort lt (chunk k (4 * j + 1)) ++ ssort lt (chunk k (4 * j + 2)) ++ ssort lt (chunk k (4 * j + 3)))); auto.
           rewrite <- !app_assoc. symmetry. apply (ssort_same_eq lt HW). repeat apply same_app; apply (ssort_same lt HW).
        -- eapply row_step with (g := 1) (u := 4 * k) (c := c) (j := j); [lia|lia|exact O2'|lia|lia|apply R1; lia].
      * intros i Hi. eapply row_step with (g := 4) (u := 4 * k) (c := c) (j := j); [lia|lia|exact O2'|lia|lia|apply S1; lia].
  - cj; auto. { intros; lia. } intros i Hi. apply HR. lia.
  - intros m' (B1 & R1 & _). apply HQ. split; auto.
Qed.
End Levels.
