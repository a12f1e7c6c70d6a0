(** Partition, introselect, quicksort. *)
From Coq Require Import List Arith Lia Permutation Bool.
From Verif Require Import Spec.Order Lang.Mem Spec.Sorts Proofs.Wp Proofs.OrderLib Model.Basic Proofs.Basic
  Model.Insertion Proofs.Insertion Model.Pdq Model.Quick Proofs.IndexLib Proofs.PdqPart Proofs.Pdq Proofs.MergeLib
  Proofs.MergeSort Proofs.MergeProps.
Import ListNotations.

(** * Partition *)
Section Partition.
Context {A : Type} (P : A -> bool) (pred : nat -> M A bool) (q : nat) (z : A).
Implicit Types W : mem A.
Notation is b := (fun x => P x = b).

(** The predicate looks at one cell and at the pivot, which is outside the range. *)
Definition pred_reads : Prop :=
  forall k m x, nth_error m k = Some (Val x) -> nth_error m q = Some (Val z) -> pred k m = Ok (P x) m.

Hypothesis HP : pred_reads.

Lemma wp_pred : forall k m x (Q : bool -> mem A -> Prop), nth_error m k = Some (Val x) -> nth_error m q = Some (Val z) ->
  Q (P x) m -> wp (pred k) Q m.
Proof. intros k m x Q Hk Hq HQ. unfold wp. rewrite (HP _ _ _ Hk Hq). auto. Qed.

Definition parts f l r m m' : Prop :=
  pm f l m m' /\ f <= r <= l /\ range_all (is true) f r m' /\ range_all (is false) r l m'.

Lemma scan_true_wp : forall l f m, f <= l -> full f l m -> nth_error m q = Some (Val z) ->
  forall (Q : (nat + nat) -> mem A -> Prop),
  (range_all (is true) f l m -> Q (inr l) m) ->
  (forall r x, f <= r < l -> range_all (is true) f r m -> nth_error m r = Some (Val x) -> P x = false -> Q (inl r) m) ->
  wp (loop (S (l - f)) (fun first =>
    if first =? l then ret (inr (inr first)) else
    let* c := pred first in
    if c then ret (inl (S first)) else ret (inr (inl first))) f) Q m.
Proof.
  intros l f m Hfl Hf Hq Q Q1 Q2.
  apply wp_loop' with (I := fun i m' => m' = m /\ f <= i <= l /\ range_all (is true) f i m) (mu := fun i => l - i).
  - cj; auto; try lia. intros k a. lia.
  - lia.
  - intros i m' (-> & Hi & HR). destruct (Nat.eqb_spec i l) as [->|]; [apply wp_ret; auto|].
    apply wp_bind. rdv Hf i x Hx. eapply wp_pred; eauto. destruct (P x) eqn:E; apply wp_ret.
    + cj; auto; try lia. intros k a Hk Ha. destruct (Nat.eq_dec k i) as [->|]; [congruence|]. apply (HR k); auto; lia.
    + eapply Q2; eauto. lia.
Qed.

Lemma partition_forward_wp : forall f l m, f <= l -> full f l m -> nth_error m q = Some (Val z) -> q < f \/ l <= q ->
  wp (partition_forward pred f l) (fun r m' => parts f l r m m') m.
Proof.
  intros f l m Hfl Hf Hq Hout. unfold partition_forward. apply wp_bind. apply scan_true_wp; auto.
  - intros HR. apply wp_ret. split; [apply pm_refl|]. cj; auto; try lia. intros k a. lia.
  - intros r x Hr HR Hx Hpx.
    apply wp_loop' with (I := fun '(fi, p) m' => pm f l m m' /\ f <= fi <= p /\ p < l /\ range_all (is true) f fi m' /\
      range_all (is false) fi (S p) m') (mu := fun '(fi, p) => l - p).
    + cj; auto; try lia. { apply pm_refl. } intros k a Hk Ha. replace k with r in Ha by lia. congruence.
    + lia.
    + intros [fi p] m' (Hpm & Hfi & Hp & R1 & R2).
      assert (full f l m') as Hf' by (eapply pm_full; eauto).
      assert (nth_error m' q = Some (Val z)) as Hq' by (rewrite (pm_out _ _ _ _ _ Hpm); auto).
      destruct (Nat.eqb_spec (S p) l) as [E|E].
      { apply wp_ret. split; auto. cj; auto; try lia. now rewrite <- E. }
      apply wp_bind. rdv Hf' (S p) y Hy. eapply wp_pred; eauto. destruct (P y) eqn:Ey.
      * apply wp_bind. eapply wp_swap_pm with (f := f) (l := l); eauto; try lia.
        intros m2 Hpm2 Hsw. apply wp_ret. cj; try lia.
        -- eapply pm_trans; eauto.
        -- intros k a Hk Ha. rewrite Hsw in Ha. destruct (Nat.eq_dec k fi) as [->|].
           ++ rewrite tr_l in Ha. congruence.
           ++ rewrite tr_o in Ha by lia. apply (R1 k); auto; lia.
        -- intros k a Hk Ha. rewrite Hsw in Ha. destruct (Nat.eq_dec k (S p)) as [->|].
           ++ rewrite tr_r in Ha. apply (R2 fi); auto; lia.
           ++ rewrite tr_o in Ha by lia. apply (R2 k); auto; lia.
      * apply wp_ret. cj; auto; try lia.
        intros k a Hk Ha. destruct (Nat.eq_dec k (S p)) as [->|]; [congruence|]. apply (R2 k); auto; lia.
Qed.

Lemma partition_bidirectional_wp : forall f l m, f <= l -> full f l m -> nth_error m q = Some (Val z) ->
  q < f \/ l <= q \/ (q = f /\ P z = true) ->
  wp (partition_bidirectional pred f l) (fun r m' => parts f l r m m' /\ nth_error m' q = Some (Val z)) m.
Proof.
  intros f l m Hfl Hf Hq Hout. unfold partition_bidirectional.
  apply wp_loop' with (I := fun '(fi, la) m' => pm f l m m' /\ f <= fi <= la /\ la <= l /\ range_all (is true) f fi m' /\
      range_all (is false) la l m' /\ nth_error m' q = Some (Val z)) (mu := fun '(fi, la) => la - fi).
  - cj; auto; try lia. { apply pm_refl. } all: intros k a; lia.
  - lia.
  - intros [fi la] m' (Hpm & Hfi & Hla & R1 & R2 & Hq').
    assert (full f l m') as Hf' by (eapply pm_full; eauto).
    apply wp_bind. apply scan_true_wp; auto; [lia|eapply full_sub; eauto; lia| |].
    + intros HR. apply wp_ret. split; auto. split; auto. cj; auto; try lia.
      intros k a Hk Ha. destruct (Nat.lt_ge_cases k fi). apply (R1 k); auto; lia. apply (HR k); auto; lia.
    + intros r x Hr HR Hx Hpx. apply wp_bind.
      assert (range_all (is true) f r m') as R1'.
      { intros k a Hk Ha. destruct (Nat.lt_ge_cases k fi). apply (R1 k); auto; lia. apply (HR k); auto; lia. }
      apply wp_loop' with (I := fun i m2 => m2 = m' /\ r < i <= la /\ range_all (is false) i l m') (mu := fun i => i - r).
      * cj; auto; try lia.
      * lia.
      * intros i m2 (-> & Hi & HR2). destruct (Nat.eqb_spec r (i - 1)) as [E|E].
        -- apply wp_ret. apply wp_ret. split; auto. split; auto. cj; auto; try lia.
           intros k a Hk Ha. destruct (Nat.eq_dec k r) as [->|]; [congruence|]. apply (HR2 k); auto; lia.
        -- apply wp_bind. rdv Hf' (i - 1) y Hy. eapply wp_pred; eauto. destruct (P y) eqn:Ey; apply wp_ret.
           ++ apply wp_bind. eapply wp_swap_pm with (f := f) (l := l); eauto; try lia.
              intros m2 Hpm2 Hsw. apply wp_ret. cj; try lia.
              ** eapply pm_trans; eauto.
              ** intros k a Hk Ha. rewrite Hsw in Ha. destruct (Nat.eq_dec k r) as [->|].
                 { rewrite tr_l in Ha. congruence. } rewrite tr_o in Ha by lia. apply (R1' k); auto; lia.
              ** intros k a Hk Ha. rewrite Hsw in Ha. destruct (Nat.eq_dec k (i - 1)) as [->|].
                 { rewrite tr_r in Ha. congruence. } rewrite tr_o in Ha by lia. apply (HR2 k); auto; lia.
              ** rewrite Hsw, tr_o; auto.
                 --- intros Eq. destruct Hout as [?|[?|[_ Hpz]]]; [lia|lia|]. rewrite Eq, Hx in Hq'. congruence.
                 --- lia.
           ++ cj; auto; try lia. intros k a Hk Ha. destruct (Nat.eq_dec k (i - 1)) as [->|]; [congruence|].
              apply (HR2 k); auto; lia.
Qed.

Lemma partition_wp : forall bidi f l m, f <= l -> full f l m -> nth_error m q = Some (Val z) -> q < f \/ l <= q ->
  wp (partition bidi pred f l) (fun r m' => parts f l r m m') m.
Proof.
  intros [] f l m Hfl Hf Hq Ho; [|now apply partition_forward_wp].
  eapply wp_mono; [apply partition_bidirectional_wp; auto; lia|]. intros r m' [H _]. auto.
Qed.
End Partition.

(** * Introselect *)
Section Quick.
Context {A T : Type} (comp : T -> T -> bool) (proj : A -> T).
Notation lt := (by_proj comp proj).
Implicit Types W : mem A.

(** A program which permutes its range whatever the comparison, and sorts it when that is a strict weak order. *)
Definition sorts_index (prog : nat -> nat -> M A unit) : Prop := forall f l m, f <= l -> full f l m ->
  wp (prog f l) (fun _ m' => pm f l m m' /\ (strict_weak_order lt -> sorted_range lt f l m')) m.

Lemma sorts_index_intro : forall prog : range_prog A, permutes prog -> (strict_weak_order lt -> sorts lt prog) -> sorts_index prog.
Proof.
  intros prog HP HS f l m Hfl Hf.
  destruct (full_decomp m f l Hfl Hf) as (pre & xs & post & -> & Hp & Hx).
  destruct (HP pre xs post) as (ys & E & HPe).
  replace l with (length pre + length xs) in * by lia. subst f.
  unfold wp. rewrite E. split. { now apply pm_intro. }
  intros HW. destruct (HS HW pre xs post) as (ys' & E' & HPe' & HSo). rewrite E in E'. injection E' as E'.
  apply app_inv_head in E'. apply app_inv_tail in E'.
  assert (ys = ys') as <-.
  { clear -E'. revert ys' E'. induction ys; destruct ys'; simpl; intros; try discriminate; auto.
    injection E' as -> E'. f_equal; auto. }
  rewrite (Permutation_length HPe). now apply list_sorted_range.
Qed.

Lemma stab_index : forall prog : range_prog A, permutes prog ->
  (strict_weak_order lt -> sorts_stably lt prog) -> sorts_index prog.
Proof.
  intros prog HP HS. apply sorts_index_intro; auto. intros HW pre xs post.
  destruct (HS HW pre xs post) as (ys & E & ? & ? & _). exists ys. split; auto. split; auto.
Qed.

Lemma sorts_index_sorts : forall prog, strict_weak_order comp -> sorts_index prog -> sorts lt prog.
Proof.
  intros prog HC HI. apply sorts_intro. intros f l m Hfl Hf. eapply wp_mono; [apply HI; auto|].
  intros u m' [HP HS]. split; auto. apply HS. now apply swo_by_proj.
Qed.

Lemma sorts_index_permutes : forall prog, sorts_index prog -> permutes prog.
Proof.
  intros prog HI. apply permutes_intro. intros f l m Hfl Hf. eapply wp_mono; [apply HI; auto|]. intros u m' [HP HS]. auto.
Qed.

Lemma insertion_index : sorts_index (insertion_sort comp proj).
Proof.
  apply (stab_index (insertion_sorter comp proj)); [apply insertion_permutes|].
  intros HW. exact (insertion_sorts_stably lt (fun x => x) HW).
Qed.

Lemma small_sort_wp : forall bidi, sorts_index (small_sort comp proj bidi).
Proof. intros []; [apply insertion_index|exact (selection_wp comp proj)]. Qed.

Lemma bubble_index : sorts_index (fun f l => bubble_sort comp proj f (l - f)).
Proof.
  intros f l m Hfl Hf.
  destruct (full_decomp m f l Hfl Hf) as (pre & xs & post & -> & Hp & Hx).
  replace (l - f) with (length xs) by lia. replace l with (length pre + length xs) in * by lia. subst f.
  eapply wp_mono; [apply bubble_sort_wp|]. intros u m' (ys & -> & HP & HS). split. { now apply pm_intro. }
  intros HW. rewrite (HS HW). rewrite <- (ssort_length lt xs). apply list_sorted_range. now apply ssort_sorted.
Qed.

Lemma iter_swap_if_any : forall f l i j m (Q : unit -> mem A -> Prop), full f l m -> f <= i < l -> f <= j < l ->
  (forall m', pm f l m m' -> full f l m' -> Q tt m') -> wp (iter_swap_if comp proj i j) Q m.
Proof.
  intros f l i j m Q Hf Hi Hj HQ. rdv Hf i x Hx. rdv Hf j y Hy. eapply wp_iter_swap_if; eauto.
  destruct (lt y x).
  - assert (pm f l m (upd j (Val x) (upd i (Val y) m))) by (apply pm_swap; auto).
    apply HQ; auto. eapply pm_full; eauto.
  - apply HQ; auto. apply pm_refl.
Qed.

Lemma swap_any : forall f l i j m (Q : unit -> mem A -> Prop), full f l m -> f <= i < l -> f <= j < l ->
  (forall m', pm f l m m' -> full f l m' -> Q tt m') -> wp (swap i j) Q m.
Proof.
  intros f l i j m Q Hf Hi Hj HQ. eapply wp_swap_pm; eauto. intros m' HP _. apply HQ; auto. eapply pm_full; eauto.
Qed.

Lemma less_at_any : forall f l i j m (Q : bool -> mem A -> Prop), full f l m -> f <= i < l -> f <= j < l ->
  (forall b, Q b m) -> wp (less_at comp proj i j) Q m.
Proof. intros f l i j m Q Hf Hi Hj HQ. eapply wp_less_at_full; eauto. Qed.

Ltac stepi f l :=
  first [apply wp_bind; eapply iter_swap_if_any with (f := f) (l := l)
        |eapply iter_swap_if_any with (f := f) (l := l)]; [eassumption|lia|lia|];
  let m' := fresh "m" in let HP := fresh "HP" in let HF := fresh "HF" in intros m' HP HF.
Ltac steps f l :=
  first [apply wp_bind; eapply swap_any with (f := f) (l := l)
        |eapply swap_any with (f := f) (l := l)]; [eassumption|lia|lia|];
  let m' := fresh "m" in let HP := fresh "HP" in let HF := fresh "HF" in intros m' HP HF.
Ltac pmt := repeat first [assumption|eapply pm_trans; [eassumption|]|apply pm_refl].

Lemma iter_sort3_any : forall f l a b c m, full f l m -> f <= a < l -> f <= b < l -> f <= c < l ->
  wp (iter_sort3 comp proj a b c) (fun r m' => r = b /\ pm f l m m') m.
Proof.
  intros f l a b c m Hf Ha Hb Hc. unfold iter_sort3. stepi f l. stepi f l. stepi f l. apply wp_ret. split; auto. pmt.
Qed.

Lemma iter_median_5_wp : forall f l a b c d e m, full f l m ->
  f <= a < l -> f <= b < l -> f <= c < l -> f <= d < l -> f <= e < l ->
  wp (iter_median_5 comp proj a b c d e) (fun r m' => f <= r < l /\ pm f l m m') m.
Proof.
  intros f l a b c d e m Hf Ha Hb Hc Hd He. unfold iter_median_5. stepi f l. stepi f l.
  apply wp_bind. apply (less_at_any f l); auto. intros r. apply wp_bind.
  apply wp_mono with (Q := fun _ m' => pm f l m m').
  { destruct r; steps f l; stepi f l; pmt. }
  intros u m2 HP2. cbv beta. assert (full f l m2) as Hf2 by (eapply pm_full; eauto).
  apply wp_bind. apply (less_at_any f l); auto. intros [].
  - apply wp_bind. apply (less_at_any f l); auto. intros []; apply wp_ret; auto.
  - apply wp_bind. apply (less_at_any f l); auto. intros []; apply wp_ret; auto.
Qed.

Lemma iter_median_rest_wp : forall f l n m, full f l m -> 1 <= n <= 5 -> f + n <= l ->
  wp (iter_median_rest comp proj f n) (fun r m' => f <= r < l /\ pm f l m m') m.
Proof.
  intros f l n m Hf Hn Hl.
  destruct n as [|[|[|[|[|[|?]]]]]]; try lia; simpl iter_median_rest.
  - apply wp_ret. split; [lia|apply pm_refl].
  - apply wp_ret. split; [lia|apply pm_refl].
  - stepi f l. stepi f l. stepi f l. apply wp_ret. split; [lia|]. pmt.
  - stepi f l. stepi f l. stepi f l. stepi f l. stepi f l. apply wp_ret. split; [lia|]. pmt.
  - apply iter_median_5_wp; auto; lia.
Qed.

(** What the mutual recursion needs. *)
Definition selects (bound : nat) (select : nat -> nat -> nat -> nat -> M A nat) : Prop :=
  forall f l nth m, full f l m -> nth < l - f -> l - f < bound ->
  wp (select f l nth (l - f)) (fun r m' => f <= r < l /\ pm f l m m') m.

Lemma median_of_medians_wp : forall select f l m, selects (l - f) select -> full f l m -> f < l ->
  wp (median_of_medians comp proj select f l (l - f)) (fun r m' => f <= r < l /\ pm f l m m') m.
Proof.
  intros select f l m HS Hf Hfl. unfold median_of_medians.
  destruct (Nat.leb_spec (l - f) 5) as [Hn|Hn]. { apply iter_median_rest_wp; auto; lia. }
  pose proof (Nat.div_mod (l - f) 5 ltac:(lia)) as Hd. pose proof (Nat.mod_upper_bound (l - f) 5 ltac:(lia)) as Hu.
  set (R := (l - f) / 5) in *. set (r5 := (l - f) mod 5) in *. clearbody R r5.
  rewrite Nat.div_mul by lia. apply wp_bind.
  apply wp_mono with (Q := fun '(it, med) m' => it = f + 5 * R /\ med = f + R /\ pm f l m m').
  { apply wp_loop' with (I := fun '(i, it, med) m' => i <= R /\ it = f + 5 * i /\ med = f + i /\ pm f l m m')
      (mu := fun '(i, it, med) => R - i).
    - cj; try lia. apply pm_refl.
    - lia.
    - intros [[i it] med] m' (Hi & -> & -> & HP). assert (full f l m') as Hf' by (eapply pm_full; eauto).
      destruct (Nat.ltb_spec i R).
      + apply wp_bind. eapply wp_mono; [apply (iter_median_5_wp f l); auto; lia|].
        intros md m2 (Hmd & HP2). cbv beta. assert (full f l m2) as Hf2 by (eapply pm_full; eauto).
        steps f l. apply wp_ret. cj; try lia. pmt.
      + apply wp_ret. cj; auto; lia. }
  intros [it med] m1 (-> & -> & HP1). cbv beta iota.
  assert (full f l m1) as Hf1 by (eapply pm_full; eauto). apply wp_bind.
  apply wp_mono with (Q := fun med m' => med = f + (if R * 5 =? l - f then R else R + 1) /\ pm f l m m').
  { destruct (Nat.eqb_spec (R * 5) (l - f)) as [E|E].
    - apply wp_ret. auto.
    - apply wp_bind. eapply wp_mono; [apply (iter_median_rest_wp (f + 5 * R) l); try lia|].
      + eapply full_sub; eauto. lia.
      + intros lm m2 (Hlm & HP2). cbv beta.
        assert (pm f l m1 m2) by (eapply pm_widen; eauto; lia).
        assert (full f l m2) as Hf2 by (eapply pm_full; eauto).
        steps f l. apply wp_ret. split; [lia|]. pmt. }
  intros md m2 (-> & HP2). cbv beta. assert (full f l m2) as Hf2 by (eapply pm_full; eauto).
  set (k := if R * 5 =? l - f then R else R + 1).
  assert (1 <= k /\ k < l - f) as [Hk1 Hk2]. { unfold k. destruct (Nat.eqb_spec (R * 5) (l - f)); lia. }
  clearbody k.
  assert (k / 2 < k) by (apply Nat.div_lt; lia).
  replace k with (f + k - f) at 3 by lia.
  eapply wp_mono; [apply HS; try lia|].
  - eapply full_sub; eauto; lia.
  - intros r m' (Hr & HP'). split; [lia|]. eapply pm_trans; eauto. eapply pm_widen; eauto; lia.
Qed.

Lemma last_it_eq : forall bidi a f l n, f < l -> a + n = l -> 0 < n -> last_it bidi a l n = l - 1.
Proof. intros [] a f l n ? ? ?; unfold last_it; lia. Qed.

Lemma pick_pivot_wp : forall select bidi f l bad m, selects (l - f) select -> full f l m -> 10 <= l - f ->
  wp (pick_pivot comp proj select bidi f l (l - f) bad) (fun '(med, last_1) m' =>
    f <= med < l /\ last_1 = l - 1 /\ pm f l m m') m.
Proof.
  intros select bidi f l bad m HS Hf Hn. unfold pick_pivot.
  destruct (0 <? bad).
  - pose proof (Nat.div_mod (l - f) 8 ltac:(lia)) as H8. pose proof (Nat.mod_upper_bound (l - f) 8 ltac:(lia)) as U8.
    pose proof (Nat.div_mod (l - f) 2 ltac:(lia)) as H2. pose proof (Nat.mod_upper_bound (l - f) 2 ltac:(lia)) as U2.
    set (e := (l - f) / 8) in *. set (h := (l - f) / 2) in *. clearbody e h.
    rewrite (last_it_eq bidi _ f l _) by lia.
    apply wp_bind. eapply wp_mono; [apply (iter_sort3_any f l); auto; lia|]. intros u m1 (_ & HP1). cbv beta. clear u.
    assert (full f l m1) by (eapply pm_full; eauto).
    apply wp_bind. eapply wp_mono; [apply (iter_sort3_any f l); auto; lia|]. intros u m2 (_ & HP2). cbv beta. clear u.
    assert (full f l m2) by (eapply pm_full; eauto).
    apply wp_bind. eapply wp_mono; [apply (iter_sort3_any f l); auto; lia|]. intros u m3 (_ & HP3). cbv beta. clear u.
    assert (full f l m3) by (eapply pm_full; eauto).
    apply wp_bind. eapply wp_mono; [apply (iter_sort3_any f l); auto; lia|]. intros u m4 (-> & HP4). cbv beta.
    apply wp_ret. cj; try lia. pmt.
  - rewrite (last_it_eq bidi f f l) by lia.
    apply wp_bind. eapply wp_mono; [apply median_of_medians_wp; auto; lia|]. intros r m' [Hr HP].
    apply wp_ret. auto.
Qed.

(** The two partitions around the pivot [z]. *)
Definition three_parts (f l m1 m2 : nat) (m m' : mem A) : Prop :=
  pm f l m m' /\ f <= m1 /\ m1 < m2 /\ m2 <= l /\ exists z, nth_error m' m1 = Some (Val z) /\
    range_all (fun x => lt x z = true) f m1 m' /\
    range_all (fun x => lt x z = false /\ lt z x = false) (S m1) m2 m' /\
    range_all (fun x => lt z x = true) m2 l m'.

Lemma pred1_reads : forall q z, pred_reads (fun x => lt x z) (fun i => less_at comp proj i q) q z.
Proof.
  intros q z k m x Hk Hq. unfold less_at, bind, get. rewrite Hk, Hq. reflexivity.
Qed.

Lemma pred2_reads : forall q z, pred_reads (fun x => negb (lt z x)) (fun i => let* c := less_at comp proj q i in ret (negb c)) q z.
Proof.
  intros q z k m x Hk Hq. unfold less_at, bind, get, ret. rewrite Hq, Hk. reflexivity.
Qed.

Lemma partition_pivot_wp : forall bidi f l med m, full f l m -> f <= med < l ->
  wp (partition_pivot comp proj bidi f l med (l - 1)) (fun '(m1, m2) m' => three_parts f l m1 m2 m m') m.
Proof.
  intros bidi f l med m Hf Hm. unfold partition_pivot.
  apply wp_bind. eapply swap_any with (f := f) (l := l); eauto; [lia|]. intros ma HPa Hfa.
  rdv Hfa (l - 1) z Hz. apply wp_bind.
  eapply wp_mono. { apply (partition_wp (fun x => lt x z) _ (l - 1) z (pred1_reads (l - 1) z)); auto; try lia.
    eapply full_sub; eauto; lia. }
  intros m1 mb (HPb & Hm1 & R1 & R2). cbv beta.
  assert (pm f l ma mb) as HPb' by (eapply pm_widen; eauto; lia).
  assert (full f l mb) as Hfb by (eapply pm_full; eauto).
  assert (nth_error mb (l - 1) = Some (Val z)) as Hzb by (rewrite (pm_out _ _ _ _ _ HPb); auto; lia).
  apply wp_bind. eapply wp_swap_pm with (f := f) (l := l); eauto; try lia. intros mc HPc Hsw.
  assert (full f l mc) as Hfc by (eapply pm_full; eauto).
  assert (nth_error mc m1 = Some (Val z)) as Hzc by (rewrite Hsw, tr_l; auto).
  assert (range_all (fun x => lt x z = true) f m1 mc) as R1c.
  { intros k a Hk Ha. rewrite Hsw, tr_o in Ha by lia. apply (R1 k); auto. }
  assert (range_all (fun x => lt x z = false) (S m1) l mc) as R2c.
  { intros k a Hk Ha. rewrite Hsw in Ha. destruct (Nat.eq_dec k (l - 1)) as [->|].
    - rewrite tr_r in Ha. apply (R2 m1); auto. lia.
    - rewrite tr_o in Ha by lia. apply (R2 k); auto. lia. }
  apply wp_bind. eapply wp_mono.
  { apply (partition_wp _ _ m1 z (pred2_reads m1 z)); auto; try lia. eapply full_sub; eauto; lia. }
  intros m2 md (HPd & Hm2 & R3 & R4). cbv beta. apply wp_ret.
  split. { eapply pm_trans; [exact HPa|]. eapply pm_trans; [exact HPb'|]. eapply pm_trans; [exact HPc|].
    eapply pm_widen; eauto; lia. }
  split; [lia|]. split; [lia|]. split; [lia|]. exists z.
  assert (range_all (fun x => lt x z = false) (S m1) l md) as R2d.
  { eapply pm_range_all; eauto. apply Hfc. }
  split. { rewrite (pm_out _ _ _ _ _ HPd); auto. }
  split. { eapply pm_range_out; eauto; lia. }
  split.
  - intros k a Hk Ha. split. { apply (R2d k); auto; lia. }
    apply negb_true_iff. apply (R3 k); auto.
  - intros k a Hk Ha. apply negb_false_iff. apply (R4 k); auto.
Qed.

(** No element at or after [p] is less than one before. *)
Definition parted f p l m : Prop := forall i j x y, f <= i < p -> p <= j < l ->
  nth_error m i = Some (Val x) -> nth_error m j = Some (Val y) -> lt y x = false.

Lemma three_parts_between : strict_weak_order lt -> forall f l (m1 m2 : nat) (m m' : mem A) p, three_parts f l m1 m2 m m' ->
  m1 <= p <= m2 -> parted f p l m'.
Proof.
  intros HW f l m1 m2 m m' p (_ & H1 & H2 & H3 & z & Hz & R1 & R2 & R3) Hp i j x y Hi Hj Ex Ey.
  assert (lt z x = false).
  { destruct (Nat.lt_trichotomy i m1) as [C|[->|C]].
    - apply lt_asym; auto. apply (R1 i); auto; lia.
    - replace x with z by congruence. apply lt_irrefl; auto.
    - apply (R2 i); auto; lia. }
  assert (lt y z = false).
  { destruct (Nat.lt_trichotomy j m1) as [C|[->|C]].
    - lia.
    - replace y with z by congruence. apply lt_irrefl; auto.
    - destruct (Nat.lt_ge_cases j m2). apply (R2 j); auto; lia. apply lt_asym; auto. apply (R3 j); auto; lia. }
  eapply (le_trans lt HW); eauto.
Qed.

(** Selecting in a part which is itself separated from the rest. *)
Lemma parted_inner : strict_weak_order lt -> forall f a p b l m m', parted f a l m -> parted f b l m -> full f l m ->
  pm a b m m' -> parted a p b m' -> f <= a -> a <= p -> p <= b -> b <= l -> parted f p l m'.
Proof.
  intros HW f a p b l m m' H1 H2 Hf HP H3 ? ? ? ? i j x y Hi Hj Ex Ey.
  assert (forall k c, a <= k < b -> nth_error m' k = Some (Val c) -> exists k', a <= k' < b /\ nth_error m k' = Some (Val c)) as K.
  { intros k c Hk Hc.
    assert (range_all (fun d => exists k', a <= k' < b /\ nth_error m k' = Some (Val d)) a b m') as HR.
    { eapply pm_range_all; eauto. { destruct Hf; lia. } intros k' c' Hk' Hc'. eauto. }
    apply (HR k c); auto. }
  destruct (Nat.lt_ge_cases i a) as [Ci|Ci].
  - rewrite (pm_out _ _ _ _ _ HP) in Ex by lia.
    destruct (Nat.lt_ge_cases j b) as [Cj|Cj].
    + destruct (K j y) as (j' & Hj' & Ey'); auto; try lia. exact (H1 i j' x y ltac:(lia) ltac:(lia) Ex Ey').
    + rewrite (pm_out _ _ _ _ _ HP) in Ey by lia. exact (H2 i j x y ltac:(lia) ltac:(lia) Ex Ey).
  - destruct (Nat.lt_ge_cases j b) as [Cj|Cj].
    + exact (H3 i j x y ltac:(lia) ltac:(lia) Ex Ey).
    + rewrite (pm_out _ _ _ _ _ HP) in Ey by lia.
      destruct (K i x) as (i' & Hi' & Ex'); auto; try lia. exact (H2 i' j x y ltac:(lia) ltac:(lia) Ex' Ey).
Qed.

Lemma introselect_loop_wp : forall bidi fuel f l nth bad m, full f l m -> nth < l - f -> l - f < fuel ->
  wp (introselect_loop comp proj bidi fuel f l nth (l - f) bad) (fun r m' =>
    r = f + nth /\ pm f l m m' /\ (strict_weak_order lt -> parted f r l m')) m.
Proof.
  intros bidi fuel. induction fuel as [|fuel IH]; intros f l nth bad m Hf Hnth Hfu; [lia|].
  simpl introselect_loop. destruct (Nat.ltb_spec 32 (l - f)) as [Hn|Hn].
  - apply wp_bind. eapply wp_mono.
    { apply pick_pivot_wp; auto; [|lia]. intros f' l' nth' m' Hf' Hnth' Hb.
      eapply wp_mono; [apply IH; auto; lia|]. intros r m2 (-> & HP & _). split; [lia|auto]. }
    intros [med last_1] ma (Hmed & -> & HPa). cbv beta iota.
    assert (full f l ma) as Hfa by (eapply pm_full; eauto).
    apply wp_bind. eapply wp_mono; [apply partition_pivot_wp; auto|].
    intros [m1 m2] mb HT. cbv beta iota. pose proof HT as (HPb & Hb1 & Hb2 & Hb3 & _).
    assert (full f l mb) as Hfb by (eapply pm_full; eauto).
    pose proof (pm_trans _ _ _ _ _ HPa HPb) as HPab.
    assert (strict_weak_order lt -> parted f m1 l mb) as T1.
    { intros HW. eapply three_parts_between; eauto. lia. }
    assert (strict_weak_order lt -> parted f m2 l mb) as T2.
    { intros HW. eapply three_parts_between; eauto. lia. }
    destruct (Nat.ltb_spec nth (m1 - f)) as [C1|C1].
    + eapply wp_mono; [apply IH; try lia; eapply full_sub; eauto; lia|].
      intros r mc (-> & HPc & HSc). split; auto. split. { eapply pm_trans; eauto. eapply pm_widen; eauto; lia. }
      intros HW. apply (parted_inner HW f f (f + nth) m1 l mb mc); auto; try lia.
      intros i j x y Hi. lia.
    + destruct (Nat.ltb_spec (m1 - f + (m2 - m1)) nth) as [C2|C2].
      * replace (l - f - (m1 - f) - (m2 - m1)) with (l - m2) by lia.
        eapply wp_mono; [apply IH; try lia; eapply full_sub; eauto; lia|].
        intros r mc (-> & HPc & HSc). split; [lia|]. split. { eapply pm_trans; eauto. eapply pm_widen; eauto; lia. }
        intros HW. eapply (parted_inner HW f m2 _ l l mb mc); eauto; try lia.
        intros i j x y Hi Hj. lia.
      * apply wp_ret. split; [lia|]. split; auto. intros HW. eapply three_parts_between; eauto. lia.
  - apply wp_bind. eapply wp_mono; [apply small_sort_wp; auto; lia|]. intros u m' (HP & HS). apply wp_ret.
    split; auto. split; auto. intros HW i j x y Hi Hj Ex Ey. eapply (HS HW i j); eauto; lia.
Qed.

Lemma introselect_selects : forall bidi bound, selects bound (introselect comp proj bidi).
Proof.
  intros bidi bound f l nth m Hf Hn Hb. unfold introselect. eapply wp_mono; [apply introselect_loop_wp; auto; lia|].
  intros r m' (-> & HP & _). split; [lia|auto].
Qed.

(** * Quicksort *)
Lemma quicksort_fallback_wp : forall bidi f l m, f <= l -> full f l m ->
  wp (quicksort_fallback comp proj bidi f l (l - f)) (fun r m' =>
    if r then pm f l m m' /\ (strict_weak_order lt -> sorted_range lt f l m') else m' = m /\ 10 <= l - f) m.
Proof.
  intros bidi f l m Hfl Hf. unfold quicksort_fallback. destruct bidi.
  - destruct (Nat.ltb_spec (l - f) 42).
    + apply wp_bind. eapply wp_mono; [apply insertion_index; auto|]. intros u m' H'. apply wp_ret. auto.
    + apply wp_ret. split; auto. lia.
  - destruct (Nat.ltb_spec (l - f) 10).
    + apply wp_bind. eapply wp_mono; [apply bubble_index; auto|]. intros u m' H'. apply wp_ret. auto.
    + apply wp_ret. split; auto.
Qed.

Lemma quicksort_loop_wp : forall bidi fuel f l bad m, f <= l -> full f l m -> l - f < fuel ->
  wp (quicksort_loop comp proj bidi fuel f l (l - f) bad) (fun _ m' =>
    pm f l m m' /\ (strict_weak_order lt -> sorted_range lt f l m')) m.
Proof.
  intros bidi fuel. induction fuel as [|fuel IH]; intros f l bad m Hfl Hf Hfu; [lia|].
  simpl quicksort_loop. apply wp_bind. eapply wp_mono; [apply quicksort_fallback_wp; auto|].
  intros [] m' HF. { apply wp_ret. auto. }
  destruct HF as [-> Hn]. apply wp_bind.
  eapply wp_mono; [apply pick_pivot_wp; auto; apply introselect_selects|].
  intros [med last_1] ma (Hmed & -> & HPa). cbv beta iota.
  assert (full f l ma) as Hfa by (eapply pm_full; eauto).
  apply wp_bind. eapply wp_mono; [apply partition_pivot_wp; auto|].
  intros [m1 m2] mb (HPb & Hb1 & Hb2 & Hb3 & z & Ez & R1 & R2 & R3). cbv beta iota.
  assert (full f l mb) as Hfb by (eapply pm_full; eauto).
  pose proof (pm_trans _ _ _ _ _ HPa HPb) as HPab.
  replace (l - f - (m1 - f) - (m2 - m1)) with (l - m2) by lia.
  (* the two recursive calls, in either order *)
  assert (forall mc md, pm f m1 mb mc /\ pm m2 l mc md \/ pm m2 l mb mc /\ pm f m1 mc md ->
    (strict_weak_order lt -> sorted_range lt f m1 md) -> (strict_weak_order lt -> sorted_range lt m2 l md) ->
    pm f l m md /\ (strict_weak_order lt -> sorted_range lt f l md)) as FIN.
  { intros mc md HP S1 S2.
    assert (pm f l mb md) as HPd.
    { destruct HP as [[? ?]|[? ?]]; eapply pm_trans; eapply pm_widen; eauto; lia. }
    split; [eapply pm_trans; eauto|]. intros HW.
    assert (length mc = length mb) as HLc.
    { destruct HP as [[HPc ?]|[HPc ?]]; eapply pm_length; eauto. }
    destruct Hfb as [HLb _].
    apply (sorted_split3 comp proj HW f m1 m2 l z md); auto.
    - apply range_all_weaken with (P := fun x => lt x z = true); [intros; apply lt_asym; auto|].
      destruct HP as [[? ?]|[? ?]].
      + apply (pm_range_out _ m2 l f m1 mc md); auto; [|lia]. apply (pm_range_all _ f m1 mb mc); auto. lia.
      + apply (pm_range_all _ f m1 mc md); auto; [lia|]. apply (pm_range_out _ m2 l f m1 mb mc); auto. lia.
    - intros k a Hk Ha.
      assert (nth_error mb k = Some (Val a)) as Ha'.
      { destruct HP as [[HPc HPd']|[HPc HPd']];
        rewrite (pm_out _ _ _ _ _ HPd'), (pm_out _ _ _ _ _ HPc) in Ha by lia; auto. }
      destruct (Nat.eq_dec k m1) as [->|]. { replace a with z by congruence. split; apply lt_irrefl; auto. }
      destruct (R2 k a) as [? ?]; auto. lia.
    - apply range_all_weaken with (P := fun x => lt z x = true); [intros; apply lt_asym; auto|].
      destruct HP as [[? ?]|[? ?]].
      + apply (pm_range_all _ m2 l mc md); auto; [lia|]. apply (pm_range_out _ f m1 m2 l mb mc); auto. lia.
      + apply (pm_range_out _ f m1 m2 l mc md); auto; [|lia]. apply (pm_range_all _ m2 l mb mc); auto. }
  destruct (l - m2 <? m1 - f); cbv beta iota.
  - apply wp_bind. eapply wp_mono; [apply IH; try lia; eapply full_sub; eauto; lia|].
    intros u mc (HPc & HSc). cbv beta.
    eapply wp_mono; [apply IH; try lia|].
    { apply (pm_full_out m2 l f m1 mb mc); auto; [|lia]. eapply full_sub; eauto; lia. }
    intros u' md (HPd & HSd). apply (FIN mc md); auto.
    intros HW. apply (pm_sorted_out comp proj f m1 m2 l mc md); auto. lia.
  - apply wp_bind. eapply wp_mono; [apply IH; try lia; eapply full_sub; eauto; lia|].
    intros u mc (HPc & HSc). cbv beta.
    eapply wp_mono; [apply IH; try lia|].
    { apply (pm_full_out f m1 m2 l mb mc); auto; [|lia]. eapply full_sub; eauto; lia. }
    intros u' md (HPd & HSd). apply (FIN mc md); auto.
    intros HW. apply (pm_sorted_out comp proj m2 l f m1 mc md); auto. lia.
Qed.

Lemma quick_sorter_wp : forall bidi, sorts_index (quick_sorter comp proj bidi).
Proof. intros bidi f l m Hfl Hf. unfold quick_sorter, quicksort. apply quicksort_loop_wp; auto. Qed.

Lemma quick_sorts : forall bidi, strict_weak_order comp -> sorts lt (quick_sorter comp proj bidi).
Proof.
  intros bidi HC. apply sorts_intro. intros f l m Hfl Hf. eapply wp_mono; [apply quick_sorter_wp; auto|].
  intros u m' [HP HS]. split; auto. apply HS. now apply swo_by_proj.
Qed.

Lemma quick_permutes : forall bidi, permutes (quick_sorter comp proj bidi).
Proof.
  intros bidi. apply permutes_intro. intros f l m Hfl Hf. eapply wp_mono; [apply quick_sorter_wp; auto|].
  intros u m' [HP HS]. auto.
Qed.
End Quick.
