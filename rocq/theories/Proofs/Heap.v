From Coq Require Import List Arith Lia Permutation Bool ZArith Zify ZifyNat.
From Verif Require Import Spec.Order Lang.Mem Spec.Sorts Proofs.Wp Proofs.OrderLib
  Model.Basic Model.Heap Proofs.Basic Proofs.HeapLib.
Import ListNotations.
Ltac Zify.zify_post_hook ::= Z.to_euclidean_division_equations.

Lemma swo_flip : forall T (comp : T -> T -> bool),
  strict_weak_order comp -> strict_weak_order (flip_comp comp).
Proof.
  intros T comp H. unfold flip_comp. constructor; intros; simpl in *.
  - apply H.
  - eapply (swo_trans _ H); eauto.
  - destruct (swo_incomp _ H x y z); auto.
Qed.

Section Heap.
Context {A T : Type} (comp : T -> T -> bool) (proj : A -> T).
Notation lt := (by_proj comp proj).

(** Selection of maxima from a heap: what both sort_heap loops maintain. *)
Definition heap_sorted_inv (f l : nat) (D n : nat) (m : mem A) : Prop :=
  heap lt D f 0 n m /\ sorted_range lt (f + n) l m /\
  (forall i j, i < n -> f + n <= j < l -> forall x y,
      nth_error m (f + i) = Some (Val x) -> nth_error m j = Some (Val y) -> le lt x y).

Lemma heap_sorted_done : forall f l D n m, n <= 1 -> heap_sorted_inv f l D n m ->
  sorted_range lt f l m.
Proof.
  intros f l D n m Hn (Hh & Hs & Hx) i j x y Hi Hij Hj Hxi Hyj.
  destruct (Nat.eq_dec n 0) as [->|].
  - rewrite Nat.add_0_r in *. apply (Hs i j); auto.
  - assert (n = 1) by lia. subst n.
    destruct (Nat.eq_dec i f) as [->|].
    + apply (Hx 0 j ltac:(lia) ltac:(lia) x y); auto. now rewrite Nat.add_0_r.
    + apply (Hs i j); auto; lia.
Qed.

(** One extraction: the maximum has gone to position [n - 1]; the first [n - 1] are a permutation
    of the others, and a heap. *)
Lemma heap_sorted_step : forall f l D n m m' x, strict_weak_order lt -> 1 <= D -> 1 <= n -> f + n <= l ->
  full f l m ->
  heap_sorted_inv f l D n m -> pm f (f + n) m m' ->
  nth_error m f = Some (Val x) -> nth_error m' (f + n - 1) = Some (Val x) ->
  heap lt D f 0 (n - 1) m' ->
  heap_sorted_inv f l D (n - 1) m'.
Proof.
  intros f l D n m m' x HW HD Hn Hl Hf (Hh & Hs & Hx) HP Hmx Hmx' Hh'.
  assert (range_all (fun a => le lt a x) f (f + n) m) as Hall.
  { intros k a Hk Ha.
    pose proof (heap_root_max lt D f HD HW n m Hh) as HR.
    assert (full f (f + n) m) as Hfn by (eapply full_sub; eauto).
    apply (HR Hfn (k - f) ltac:(lia)).
    - replace (f + (k - f)) with k by lia. auto.
    - now rewrite Nat.add_0_r. }
  assert (f + n <= length m) as HL by (destruct Hf; lia).
  pose proof (pm_range_all _ _ _ _ _ HP HL Hall) as Hall'.
  assert (forall j, f + n <= j -> nth_error m' j = nth_error m j) as Hout
    by (intros; eapply pm_out; eauto).
  assert (forall j, f + n <= j < l -> range_all (fun a => forall y, nth_error m j = Some (Val y) -> le lt a y) f (f + n) m') as Hbelow.
  { intros j Hj. eapply pm_range_all; eauto. intros k a Hk Ha y Hy.
    apply (Hx (k - f) j ltac:(lia) Hj); auto. replace (f + (k - f)) with k by lia. auto. }
  split; auto. split.
  - intros i j u v Hi Hij Hj Hu Hv.
    destruct (Nat.eq_dec i (f + n - 1)) as [->|].
    + rewrite Hout in Hv by lia. assert (u = x) by congruence. subst u.
      apply (Hx 0 j ltac:(lia) ltac:(lia)); auto. now rewrite Nat.add_0_r.
    + rewrite Hout in Hu, Hv by lia. apply (Hs i j); auto; lia.
  - intros i j Hi Hj u v Hu Hv.
    destruct (Nat.eq_dec j (f + n - 1)) as [->|].
    + assert (v = x) by congruence. subst v. apply (Hall' (f + i)); auto; lia.
    + rewrite Hout in Hv by lia. eapply (Hbelow j ltac:(lia) (f + i)); eauto. lia.
Qed.

Section Dary.
Variable D : nat.
Hypothesis HD : 1 <= D.

Lemma siftup_wp : forall f n c m, c < n -> full f (f + n) m ->
  wp (siftup comp proj D f (f + c)) (fun _ m' => pm f (f + n) m m' /\
     (strict_weak_order lt -> heap_up lt D f n c m -> heap lt D f 0 n m')) m.
Proof.
  intros f n c m Hc Hf. unfold siftup.
  apply wp_loop' with
    (I := fun it m' => exists c', it = f + c' /\ c' < n /\ pm f (f + n) m m' /\
       (strict_weak_order lt -> heap_up lt D f n c m -> heap_up lt D f n c' m'))
    (mu := fun it => it - f).
  - exists c. repeat split; auto using pm_refl. all: apply H0.
  - lia.
  - intros it m' (c' & -> & Hc' & HP & HU).
    destruct (Nat.eqb_spec (f + c') f) as [E|E].
    + apply wp_ret. split; auto. intros HW H0. eapply (heap_up_done lt D f ltac:(lia)); eauto; intros; lia.
    + unfold parent_it. replace (f + c' - f - 1) with (c' - 1) by lia.
      change ((c' - 1) / D) with (par D c').
      pose proof (par_lt D ltac:(lia) c' ltac:(lia)) as Hp.
      pose proof (pm_full _ _ _ _ HP Hf) as Hf'.
      rdv Hf' (f + par D c') y Hy. rdv Hf' (f + c') x Hx.
      apply wp_bind. eapply wp_less_at; eauto.
      destruct (lt y x) eqn:C.
      * apply wp_bind. eapply wp_swap; eauto. apply wp_ret. split; [|lia].
        exists (par D c'). split; auto. split; [lia|]. split.
        { eapply pm_trans; [exact HP|]. apply pm_swap; auto; lia. }
        intros HW H0. apply heap_up_step; auto; lia.
      * apply wp_ret. split; auto. intros HW H0.
        eapply (heap_up_done lt D f ltac:(lia)); eauto. intros _ _ u v Hu Hv. red. congruence.
Qed.

Lemma top_child_wp : forall f n c m, c < n -> c * D + 1 < n -> full f (f + n) m ->
  wp (top_child_it comp proj D f (f + n) (f + c)) (fun j m' => m' = m /\ exists j', j = f + j' /\
     1 <= j' < n /\ par D j' = c /\
     (strict_weak_order comp -> forall i, 1 <= i < n -> par D i = c -> ok lt f m i j')) m.
Proof.
  intros f n c m Hc Hn Hf. unfold top_child_it, first_child_it.
  replace (f + c - f) with c by lia.
  set (fc := f + c * D + 1).
  set (lc := if D <? f + n - fc then fc + D else f + n).
  assert (fc < lc /\ lc <= f + n /\ lc <= fc + D /\ (forall i, i < n -> i < c * D + 1 + D -> f + i < lc)) as (H1 & H2 & H3 & H4).
  { unfold lc, fc. destruct (Nat.ltb_spec D (f + n - (f + c * D + 1))); repeat split; intros; try lia. }
  unfold min_element. destruct (Nat.eqb_spec fc lc); [lia|].
  eapply wp_mono.
  { apply unchecked_min_element_wp; auto. eapply full_sub; [exact Hf|unfold fc; lia|lia]. }
  intros j m' (-> & Hj & HM). split; auto. exists (j - f). unfold fc in *.
  split; [lia|]. split; [lia|].
  split. { apply par_spec; lia. }
  intros HC i Hi Hp u v Hu Hv.
  destruct (HM ltac:(apply swo_by_proj, swo_flip; auto)) as (_ & w & Hw & Hall).
  replace (f + (j - f)) with j in Hv by lia.
  assert (w = v) by congruence. subst w.
  apply par_spec in Hp; [|lia|lia].
  apply (Hall (f + i)); auto. split; [lia|]. apply H4; lia.
Qed.

Lemma siftdown_wp : forall f n c m, c < n -> full f (f + n) m ->
  wp (siftdown comp proj D f (f + n) (f + c)) (fun _ m' => pm f (f + n) m m' /\
     (strict_weak_order comp -> heap_down lt D f 0 n c m -> heap lt D f 0 n m')) m.
Proof.
  intros f n c m Hc Hf. unfold siftdown.
  apply wp_loop' with
    (I := fun it m' => exists c', it = f + c' /\ c' < n /\ pm f (f + n) m m' /\
       (strict_weak_order comp -> heap_down lt D f 0 n c m -> heap_down lt D f 0 n c' m'))
    (mu := fun it => f + n - it).
  - exists c. repeat split; auto using pm_refl. all: apply H0.
  - lia.
  - intros it m' (c' & -> & Hc' & HP & HU).
    pose proof (pm_full _ _ _ _ HP Hf) as Hf'.
    unfold not_leaf. replace (f + c' - f) with c' by lia.
    destruct (Nat.ltb_spec (c' * (D - 1)) (f + n - (f + c') - 1)) as [Hl|Hl].
    + assert (c' * D + 1 < n) by nia.
      apply wp_bind. eapply wp_mono; [apply top_child_wp; auto|].
      intros j m1 (-> & j' & -> & Hj & Hp & Hmax).
      pose proof (par_lt D ltac:(lia) j' ltac:(lia)) as Hlt.
      rdv Hf' (f + j') y Hy. rdv Hf' (f + c') x Hx.
      apply wp_bind. eapply wp_less_at; eauto.
      destruct (lt y x) eqn:C; simpl negb; cbv iota.
      * apply wp_ret. split; auto. intros HC H0.
        pose proof (swo_by_proj _ _ comp proj HC) as HW.
        eapply (heap_down_done lt D f); eauto. intros i Hi Hpi u v Hu Hv.
        assert (v = x) by congruence. subst v.
        eapply (le_trans lt HW) with y; [eapply Hmax; eauto|]. apply lt_le; auto.
      * apply wp_bind. eapply wp_swap; eauto. apply wp_ret. split; [|lia].
        exists j'. split; auto. split; [lia|]. split.
        { eapply pm_trans; [exact HP|]. apply pm_swap; auto; lia. }
        intros HC H0. pose proof (swo_by_proj _ _ comp proj HC) as HW.
        eapply heap_down_step; eauto; lia.
    + apply wp_ret. split; auto. intros HC H0.
      eapply (heap_down_done lt D f); eauto. intros i Hi Hpi.
      apply par_spec in Hpi; nia.
Qed.

Lemma make_d_ary_heap_wp : forall f l m, f <= l -> full f l m ->
  wp (make_d_ary_heap comp proj D f l) (fun _ m' => pm f l m m' /\
     (strict_weak_order lt -> heap lt D f 0 (l - f) m')) m.
Proof.
  intros f l m Hfl Hf. unfold make_d_ary_heap, push_d_ary_heap.
  destruct (Nat.eqb_spec f l) as [E|E].
  { apply wp_ret. split; [apply pm_refl|]. intros _ i Hi. lia. }
  assert (forall it m', f < it <= l -> pm f l m m' ->
     (strict_weak_order lt -> heap lt D f 0 (it - 1 - f) m') ->
     wp (siftup comp proj D f (it - 1)) (fun _ m' => pm f l m m' /\
        (strict_weak_order lt -> heap lt D f 0 (it - f) m')) m') as Hpush.
  { intros it m' Hit HP Hh.
    replace (it - 1) with (f + (it - 1 - f)) by lia.
    pose proof (pm_full _ _ _ _ HP Hf) as Hf'.
    eapply wp_mono.
    { apply (siftup_wp f (it - f) (it - 1 - f)); [lia|]. eapply full_sub; [exact Hf'|lia|lia]. }
    intros _ m1 [HP1 HU]. split.
    { eapply pm_trans; [exact HP|]. eapply pm_widen; eauto. lia. }
    intros HW. apply HU; auto. split.
    - intros i Hi Hne. apply Hh; auto; lia.
    - intros i Hi Hpi. pose proof (par_lt D ltac:(lia) i ltac:(lia)). lia. }
  apply wp_bind. apply wp_loop' with
    (I := fun it m' => f < it <= l /\ pm f l m m' /\
       (strict_weak_order lt -> heap lt D f 0 (it - 1 - f) m'))
    (mu := fun it => l - it).
  - split; [lia|]. split; [apply pm_refl|]. intros _ i Hi. lia.
  - lia.
  - intros it m' (Hit & HP & Hh). destruct (Nat.eqb_spec it l) as [E1|E1].
    + apply wp_ret. subst it. apply Hpush; auto.
    + apply wp_bind. eapply wp_mono; [apply Hpush; eauto|].
      intros _ m1 [HP1 HU]. apply wp_ret. split; [|lia]. split; [lia|]. split; auto.
      replace (S it - 1 - f) with (it - f) by lia. auto.
Qed.

Lemma sort_d_ary_heap_wp : forall f l m, f <= l -> full f l m ->
  wp (sort_d_ary_heap comp proj D f l) (fun _ m' => pm f l m m' /\
     (strict_weak_order comp -> heap lt D f 0 (l - f) m -> sorted_range lt f l m')) m.
Proof.
  intros f l m Hfl Hf. unfold sort_d_ary_heap.
  apply wp_loop' with
    (I := fun it m' => f <= it <= l /\ pm f l m m' /\
       (strict_weak_order comp -> heap lt D f 0 (l - f) m -> heap_sorted_inv f l D (it - f) m'))
    (mu := fun it => it - f).
  - split; [lia|]. split; [apply pm_refl|]. intros HC Hh. split; auto. split.
    + intros i j. lia.
    + intros i j. lia.
  - lia.
  - intros it m' (Hit & HP & HI). destruct (Nat.eqb_spec it f) as [E|E].
    + apply wp_ret. split; auto. intros HC Hh. eapply heap_sorted_done; [|apply HI; auto]. lia.
    + pose proof (pm_full _ _ _ _ HP Hf) as Hf'.
      apply wp_bind. unfold pop_d_ary_heap. apply wp_bind.
      rdv Hf' f x Hx. rdv Hf' (it - 1) y Hy.
      eapply wp_swap; eauto.
      set (m1 := upd (it - 1) (Val x) (upd f (Val y) m')).
      assert (pm f it m' m1) as HP1 by (apply pm_swap; auto; lia).
      assert (nth_error m1 (it - 1) = Some (Val x)) as Hlast.
      { unfold m1. apply nth_upd_eq. rewrite upd_length. eapply nth_lt; eauto. }
      destruct (Nat.eqb_spec f (it - 1)) as [E1|E1].
      * apply wp_ret. apply wp_ret. split; [|lia]. split; [lia|]. split.
        { eapply pm_trans; [exact HP|]. eapply pm_widen; eauto. lia. }
        intros HC Hh. replace (it - 1 - f) with (it - f - 1) by lia.
        pose proof (swo_by_proj _ _ comp proj HC) as HW.
        eapply heap_sorted_step with (m := m') (x := x); eauto; try lia.
        -- replace (f + (it - f)) with it by lia. auto.
        -- replace (f + (it - f) - 1) with (it - 1) by lia. auto.
        -- intros i Hi. lia.
      * assert (full f (it - 1) m1) as Hf1.
        { eapply full_sub; [eapply pm_full; [exact HP1|]|lia|lia].
          eapply full_sub; [exact Hf'|lia|lia]. }
        pose proof (siftdown_wp f (it - f - 1) 0 m1 ltac:(lia)) as HS.
        replace (f + (it - f - 1)) with (it - 1) in HS by lia.
        rewrite Nat.add_0_r in HS.
        eapply wp_mono; [apply HS; auto|].
        intros _ m2 [HP2 HD2]. apply wp_ret. split; [|lia]. split; [lia|].
        split.
        { eapply pm_trans; [exact HP|]. eapply pm_trans.
          eapply pm_widen; [exact HP1|lia|lia]. eapply pm_widen; [exact HP2|lia|lia]. }
        intros HC Hh. replace (it - 1 - f) with (it - f - 1) by lia.
        pose proof (swo_by_proj _ _ comp proj HC) as HW.
        eapply heap_sorted_step with (m := m') (x := x); eauto; try lia.
        -- replace (f + (it - f)) with it by lia. eapply pm_trans; [exact HP1|].
           eapply pm_widen; [exact HP2|lia|lia].
        -- replace (f + (it - f) - 1) with (it - 1) by lia.
           rewrite (pm_out _ _ _ _ _ HP2) by lia. auto.
        -- apply HD2; auto. destruct (HI HC Hh) as (Hhp & _).
           split.
           ++ intros i Hi _ Hpi u v Hu Hv.
              pose proof (par_lt D ltac:(lia) i ltac:(lia)).
              unfold m1 in Hu, Hv. upd_cases.
              apply (Hhp i); auto; lia.
           ++ intros; lia.
Qed.

Lemma d_ary_heap_wp : forall f l m, f <= l -> full f l m ->
  wp (d_ary_heap_sorter comp proj D f l) (fun _ m' => pm f l m m' /\
     (strict_weak_order comp -> sorted_range lt f l m')) m.
Proof.
  intros f l m Hfl Hf. unfold d_ary_heap_sorter, d_ary_heapsort. apply wp_bind.
  eapply wp_mono; [apply make_d_ary_heap_wp; auto|]. intros _ m1 [HP1 H1].
  eapply wp_mono; [apply sort_d_ary_heap_wp; auto; eapply pm_full; eauto|].
  intros _ m2 [HP2 H2]. split. { eapply pm_trans; eauto. }
  intros HC. apply H2; auto. apply H1. now apply swo_by_proj.
Qed.
End Dary.

(** * Binary heap *)
Notation heap2 := (heap lt 2).

Lemma half_lt : forall n c, 2 <= n -> ((n - 2) / 2 < c <-> n <= 2 * c + 1).
Proof. intros. lia. Qed.

Lemma greater_child_wp : forall f n c V m, 2 * c + 1 < n -> full f (f + n) V ->
  (forall i, c < i -> nth_error m (f + i) = nth_error V (f + i)) ->
  wp (greater_child comp proj f n c) (fun j m' => m' = m /\ c < j < n /\ par 2 j = c /\
     (strict_weak_order lt -> forall i, 1 <= i < n -> par 2 i = c -> ok lt f V i j)) m.
Proof.
  intros f n c V m Hn Hf Hm. unfold greater_child.
  assert (forall i, 1 <= i -> (par 2 i = c <-> i = 2 * c + 1 \/ i = 2 * c + 2)) as Hpar.
  { intros. unfold par. lia. }
  rdv Hf (f + (2 * c + 1)) x Hx.
  destruct (Nat.ltb_spec (2 * c + 1 + 1) n) as [H1|H1].
  - rdv Hf (f + (2 * c + 1 + 1)) y Hy.
    apply wp_bind. eapply wp_less_at with (x := x) (y := y).
    + rewrite Hm; auto; lia.
    + rewrite <- Nat.add_assoc, Hm; auto; lia.
    + apply wp_ret. split; auto. destruct (lt x y) eqn:C.
      * split; [lia|]. split. { apply Hpar; lia. }
        intros HW i Hi Hp u v Hu Hv. apply Hpar in Hp; [|lia]. destruct Hp as [->| ->].
        -- assert (u = x) by congruence. assert (v = y) by congruence. subst. apply lt_le; auto.
        -- replace (2 * c + 1 + 1) with (2 * c + 2) in * by lia.
           assert (u = v) by congruence. subst. apply le_refl; auto.
      * split; [lia|]. split. { apply Hpar; lia. }
        intros HW i Hi Hp u v Hu Hv. apply Hpar in Hp; [|lia]. destruct Hp as [->| ->].
        -- assert (u = v) by congruence. subst. apply le_refl; auto.
        -- replace (2 * c + 1 + 1) with (2 * c + 2) in * by lia.
           assert (u = y) by congruence. assert (v = x) by congruence. subst. exact C.
  - apply wp_ret. split; auto. split; [lia|]. split. { apply Hpar; lia. }
    intros HW i Hi Hp u v Hu Hv. apply Hpar in Hp; [|lia]. assert (i = 2 * c + 1) by lia. subst i.
    assert (u = v) by congruence. subst. apply le_refl; auto.
Qed.

Lemma par2 : forall j c, 1 <= j -> par 2 j = c -> c < j.
Proof. intros. subst. apply par_lt; lia. Qed.

Lemma sift_down_wp : forall f n c m, c < n -> full f (f + n) m ->
  wp (sift_down comp proj f n (f + c)) (fun _ m' => pm f (f + n) m m' /\
     (strict_weak_order lt -> heap2 f (S c) n m -> heap2 f c n m')) m.
Proof.
  intros f n c0 m Hc Hf. unfold sift_down. replace (f + c0 - f) with c0 by lia.
  assert (heap2 f (S c0) n m -> heap_down lt 2 f c0 n c0 m) as Hinit.
  { intros Hh. split; [|lia]. intros i Hi Hs Hne. apply Hh; auto; lia. }
  destruct (Nat.ltb_spec n 2) as [Hn|Hn].
  { simpl. apply wp_ret. split; [apply pm_refl|]. intros HW Hh i Hi. lia. }
  destruct (Nat.ltb_spec ((n - 2) / 2) c0) as [Hl|Hl]; simpl orb; cbv iota.
  { apply half_lt in Hl; auto. apply wp_ret. split; [apply pm_refl|]. intros HW Hh.
    eapply (heap_down_done lt 2 f); [apply Hinit; auto|]. intros i Hi Hp. unfold par in Hp. lia. }
  apply wp_bind. eapply wp_mono; [apply (greater_child_wp f n c0 m m); auto; lia|].
  intros j m' (-> & Hj & Hp & Hmax).
  rdv Hf (f + j) y Hy. rdv Hf (f + c0) top Ht.
  apply wp_bind. eapply wp_less_at; eauto. destruct (lt y top) eqn:C.
  { apply wp_ret. split; [apply pm_refl|]. intros HW Hh.
    eapply (heap_down_done lt 2 f); [apply Hinit; auto|]. intros i Hi Hpi u v Hu Hv.
    assert (v = top) by congruence. subst v.
    eapply (le_trans lt HW) with y; [eapply Hmax; eauto|]. apply lt_le; auto. }
  apply wp_bind. eapply wp_take_hole; eauto. apply wp_bind.
  apply wp_loop' with
    (I := fun '(start, child) m' => exists c V, start = f + c /\ m' = upd (f + c) Moved V /\
       c < child < n /\ par 2 child = c /\ c0 <= c /\
       nth_error V (f + c) = Some (Val top) /\ pm f (f + n) m V /\
       (exists z, nth_error V (f + child) = Some (Val z) /\ le lt top z) /\
       (strict_weak_order lt -> forall i, 1 <= i < n -> par 2 i = c -> ok lt f V i child) /\
       (strict_weak_order lt -> heap2 f (S c0) n m -> heap_down lt 2 f c0 n c V))
    (mu := fun '(start, child) => f + n - start).
  - exists c0, m. sp. auto.
  - lia.
  - clear j y Hj Hp Hmax Hy C. intros [start j] m' (c & V & -> & -> & Hj & Hp & Hcc & Htop & HP & (y & Hy & Hle) & Hmax & Hh).
    pose proof (pm_full _ _ _ _ HP Hf) as HfV.
    apply wp_bind. eapply wp_move_hole; eauto; [lia|].
    set (V' := upd (f + c) (Val y) (upd (f + j) (Val top) V)).
    assert (pm f (f + n) V V') as HPV.
    { unfold V'. apply pm_swap; auto; lia. }
    assert (pm f (f + n) m V') as HP' by (eapply pm_trans; eauto).
    assert (nth_error V' (f + j) = Some (Val top)) as Htop'.
    { unfold V'. rewrite nth_upd_ne by lia. apply nth_upd_eq. eapply nth_lt; eauto. }
    assert (strict_weak_order lt -> heap2 f (S c0) n m -> heap_down lt 2 f c0 n j V') as Hh'.
    { intros HW H0. eapply heap_down_step; eauto; lia. }
    assert (forall m2, m2 = V' -> pm f (f + n) m m2) as Hq by (intros; subst; auto).
    destruct (Nat.ltb_spec ((n - 2) / 2) j) as [Hl1|Hl1].
    + apply half_lt in Hl1; auto. apply wp_ret. eapply wp_put_hole; eauto. split; auto.
      intros HW H0. eapply (heap_down_done lt 2 f); [apply Hh'; auto|].
      intros i Hi Hpi. unfold par in Hpi. lia.
    + pose proof (pm_full _ _ _ _ HP' Hf) as HfV'.
      apply wp_bind. eapply wp_mono.
      { apply (greater_child_wp f n j V'); auto; [lia|]. intros i Hi. apply nth_upd_ne. lia. }
      intros j' m2 (-> & Hj' & Hp' & Hmax').
      rdv HfV' (f + j') z Hz.
      apply wp_bind. eapply wp_get_hole; eauto; [lia|].
      change (comp (proj z) (proj top)) with (lt z top).
      destruct (lt z top) eqn:C; simpl negb; cbv iota; apply wp_ret.
      * eapply wp_put_hole; eauto. split; auto.
        intros HW H0. eapply (heap_down_done lt 2 f); [apply Hh'; auto|].
        intros i Hi Hpi u v Hu Hv. assert (v = top) by congruence. subst v.
        eapply (le_trans lt HW) with z; [eapply Hmax'; eauto|]. apply lt_le; auto.
      * split; [|lia]. exists j, V'. sp. auto.
Qed.

Lemma make_heap_wp : forall f l m, f <= l -> full f l m ->
  wp (make_heap comp proj f l) (fun _ m' => pm f l m m' /\
     (strict_weak_order lt -> heap2 f 0 (l - f) m')) m.
Proof.
  intros f l m Hfl Hf. unfold make_heap.
  destruct (Nat.ltb_spec 1 (l - f)) as [Hn|Hn].
  2:{ apply wp_ret. split; [apply pm_refl|]. intros _ i Hi. lia. }
  set (n := l - f) in *.
  apply wp_loop' with
    (I := fun k m' => k <= S ((n - 2) / 2) /\ pm f l m m' /\ (strict_weak_order lt -> heap2 f k n m'))
    (mu := fun k => k).
  - split; [lia|]. split; [apply pm_refl|]. intros _ i Hi Hp. unfold par in Hp. lia.
  - lia.
  - intros k m' (Hk & HP & Hh). destruct k as [|s].
    + apply wp_ret. auto.
    + pose proof (pm_full _ _ _ _ HP Hf) as Hf'.
      apply wp_bind. eapply wp_mono.
      { apply (sift_down_wp f n s); [lia|]. replace (f + n) with l by lia. auto. }
      intros _ m1 [HP1 H1]. replace (f + n) with l in HP1 by lia.
      apply wp_ret. split; [|lia]. split; [lia|]. split; auto. eapply pm_trans; eauto.
Qed.

Lemma push_heap_wp : forall f n c m, c < n -> full f (f + n) m ->
  wp (push_heap comp proj f (f + c + 1) (c + 1)) (fun _ m' => pm f (c + f + 1) m m' /\
     (strict_weak_order lt -> heap_up lt 2 f n c m -> heap2 f 0 n m')) m.
Proof.
  intros f n c m Hc Hf. unfold push_heap.
  destruct (Nat.ltb_spec 1 (c + 1)) as [H1|H1].
  2:{ apply wp_ret. split; [apply pm_refl|]. intros HW Hh.
      eapply (heap_up_done lt 2 f ltac:(lia)); eauto. intros; lia. }
  replace ((c + 1 - 2) / 2) with (par 2 c) by (unfold par; f_equal; lia).
  replace (f + c + 1 - 1) with (f + c) by lia.
  pose proof (par_lt 2 ltac:(lia) c ltac:(lia)) as Hpc.
  rdv Hf (f + par 2 c) y Hy. rdv Hf (f + c) t Ht.
  apply wp_bind. eapply wp_less_at; eauto. destruct (lt y t) eqn:C.
  2:{ apply wp_ret. split; [apply pm_refl|]. intros HW Hh.
      eapply (heap_up_done lt 2 f ltac:(lia)); eauto. intros _ _ u v Hu Hv.
      red. congruence. }
  apply wp_bind. eapply wp_take_hole; eauto. apply wp_bind.
  apply wp_loop' with
    (I := fun '(last, ptr, len) m' => exists c' V, last = f + c' /\ 1 <= c' <= c /\ ptr = f + par 2 c' /\
       len = par 2 c' /\ m' = upd (f + c') Moved V /\ pm f (c + f + 1) m V /\
       nth_error V (f + c') = Some (Val t) /\
       (exists z, nth_error V (f + par 2 c') = Some (Val z) /\ lt z t = true) /\
       (strict_weak_order lt -> heap_up lt 2 f n c m -> heap_up lt 2 f n c' V))
    (mu := fun '(last, ptr, len) => len).
  - exists c, m. sp. auto.
  - lia.
  - intros [[last ptr] len] m' (c' & V & -> & Hc' & -> & -> & -> & HP & Htc & (z & Hz & Hlt) & Hh).
    pose proof (par_lt 2 ltac:(lia) c' ltac:(lia)) as Hpc'.
    apply wp_bind. eapply wp_move_hole; eauto; [lia|].
    set (V' := upd (f + c') (Val z) (upd (f + par 2 c') (Val t) V)).
    assert (pm f (c + f + 1) V V') as HPV.
    { unfold V'. apply pm_swap; auto; lia. }
    assert (pm f (c + f + 1) m V') as HP' by (eapply pm_trans; eauto).
    assert (nth_error V' (f + par 2 c') = Some (Val t)) as Htop'.
    { unfold V'. rewrite nth_upd_ne by lia. apply nth_upd_eq. eapply nth_lt; eauto. }
    assert (strict_weak_order lt -> heap_up lt 2 f n c m -> heap_up lt 2 f n (par 2 c') V') as Hh'.
    { intros HW H0. apply heap_up_step; auto; lia. }
    destruct (Nat.eqb_spec (par 2 c') 0) as [E|E].
    + apply wp_ret. eapply wp_put_hole; eauto. split; auto.
      intros HW H0. eapply (heap_up_done lt 2 f ltac:(lia)); eauto. intros; lia.
    + change ((par 2 c' - 1) / 2) with (par 2 (par 2 c')).
      pose proof (par_lt 2 ltac:(lia) (par 2 c') ltac:(lia)) as Hpc2.
      assert (full f (f + n) V') as HfV'. { eapply pm_full; [|exact Hf]. eapply pm_widen; eauto; lia. }
      rdv HfV' (f + par 2 (par 2 c')) w Hw.
      apply wp_bind. eapply wp_get_hole; eauto; [lia|].
      change (comp (proj w) (proj t)) with (lt w t).
      destruct (lt w t) eqn:C2; apply wp_ret.
      * split; [|lia]. exists (par 2 c'), V'. sp; eauto.
      * eapply wp_put_hole; eauto. split; auto.
        intros HW H0. eapply (heap_up_done lt 2 f ltac:(lia)); eauto.
        intros _ _ u v Hu Hv. red. congruence.
Qed.

Lemma floyd_sift_down_wp : forall f n V0 top, 2 <= n -> full f (f + n) V0 ->
  nth_error V0 f = Some (Val top) ->
  wp (floyd_sift_down comp proj f n) (fun hole m' => exists c V, hole = f + c /\ c < n /\ n <= 2 * c + 1 /\
     m' = upd (f + c) Moved V /\ nth_error V (f + c) = Some (Val top) /\ pm f (f + n) V0 V /\
     (strict_weak_order lt -> heap2 f 0 n V0 -> heap_hole lt 2 f n c V)) (upd f Moved V0).
Proof.
  intros f n V0 top Hn Hf Htop. unfold floyd_sift_down.
  destruct (Nat.ltb_spec n 2); [lia|].
  apply wp_loop' with
    (I := fun '(hole, child_i, child) m' => exists V, hole = f + child /\ child_i = f + child /\
       2 * child + 1 < n /\ m' = upd (f + child) Moved V /\ nth_error V (f + child) = Some (Val top) /\
       pm f (f + n) V0 V /\
       (strict_weak_order lt -> heap2 f 0 n V0 -> heap_hole lt 2 f n child V))
    (mu := fun '(hole, child_i, child) => n - child).
  - exists V0. rewrite Nat.add_0_r. sp.
    intros HW Hh. split; [|lia]. intros i Hi _ _. apply Hh; auto; lia.
  - lia.
  - intros [[hole ci] c] m' (V & -> & -> & Hc & -> & Htc & HP & Hh).
    pose proof (pm_full _ _ _ _ HP Hf) as HfV.
    (* the choice of the child is that of [greater_child] *)
    pose proof (greater_child_wp f n c V (upd (f + c) Moved V) Hc HfV) as HG.
    assert (forall i, c < i -> nth_error (upd (f + c) Moved V) (f + i) = nth_error V (f + i)) as HU.
    { intros. apply nth_upd_ne. lia. }
    specialize (HG HU). unfold greater_child in HG.
    rdv HfV (f + (2 * c + 1)) a Ha.
    assert (wp (if 2 * c + 1 + 1 <? n then less_at comp proj (f + c + (c + 1)) (S (f + c + (c + 1))) else ret false)
      (fun b m2 => m2 = upd (f + c) Moved V /\ exists j, j = (if b then S (2 * c + 1) else 2 * c + 1) /\
          c < j < n /\ par 2 j = c /\
          (strict_weak_order lt -> forall i, 1 <= i < n -> par 2 i = c -> ok lt f V i j)) (upd (f + c) Moved V)) as HB.
    { destruct (Nat.ltb_spec (2 * c + 1 + 1) n) as [H1|H1].
      - rdv HfV (f + (2 * c + 1 + 1)) b Hb.
        assert (nth_error (upd (f + c) Moved V) (f + (2 * c + 1)) = Some (Val a)) as Ha'.
        { rewrite HU; auto; lia. }
        assert (nth_error (upd (f + c) Moved V) (f + (2 * c + 1) + 1) = Some (Val b)) as Hb'.
        { rewrite <- Nat.add_assoc, HU; auto; lia. }
        eapply wp_less_at with (x := a) (y := b).
        { replace (f + c + (c + 1)) with (f + (2 * c + 1)) by lia. auto. }
        { replace (S (f + c + (c + 1))) with (f + (2 * c + 1) + 1) by lia. auto. }
        split; auto.
        unfold bind, wp, less_at in HG. unfold bind, get in HG. rewrite Ha', Hb' in HG. cbv beta iota delta [ret] in HG.
        change (comp (proj a) (proj b)) with (lt a b) in HG.
        eexists. split; [reflexivity|]. destruct (lt a b).
        + replace (S (2 * c + 1)) with (2 * c + 1 + 1) by lia. apply HG.
        + apply HG.
      - apply wp_ret. split; auto. eexists. split; [reflexivity|].
        unfold wp, ret in HG. apply HG. }
    apply wp_bind. eapply wp_mono; [exact HB|]. clear HG HB.
    intros b m2 (-> & j & Ej & Hj & Hp & Hmax).
    replace (if b then S (f + c + (c + 1)) else f + c + (c + 1)) with (f + j)
      by (rewrite Ej; destruct b; lia).
    rewrite <- Ej.
    rdv HfV (f + j) y Hy.
    apply wp_bind. eapply wp_move_hole; eauto; [lia|].
    set (V' := upd (f + c) (Val y) (upd (f + j) (Val top) V)).
    assert (pm f (f + n) V V') as HPV.
    { unfold V'. apply pm_swap; auto; lia. }
    assert (pm f (f + n) V0 V') as HP' by (eapply pm_trans; eauto).
    assert (nth_error V' (f + j) = Some (Val top)) as Htop'.
    { unfold V'. rewrite nth_upd_ne by lia. apply nth_upd_eq. eapply nth_lt; eauto. }
    assert (strict_weak_order lt -> heap2 f 0 n V0 -> heap_hole lt 2 f n j V') as Hh'.
    { intros HW H0. eapply heap_hole_step; eauto; lia. }
    destruct (Nat.ltb_spec ((n - 2) / 2) j) as [Hl|Hl]; apply wp_ret.
    + exists j, V'. apply half_lt in Hl; auto. sp; auto.
    + split; [|lia]. exists V'. sp; auto.
Qed.

Lemma pop_heap_wp : forall f n m, 2 <= n -> full f (f + n) m ->
  wp (pop_heap comp proj f (f + n) n) (fun _ m' => pm f (f + n) m m' /\
     nth_error m' (f + n - 1) = nth_error m f /\
     (strict_weak_order lt -> heap2 f 0 n m -> heap2 f 0 (n - 1) m')) m.
Proof.
  intros f n m Hn Hf. unfold pop_heap. destruct (Nat.ltb_spec 1 n); [|lia].
  rdv Hf f top Ht. apply wp_bind. eapply wp_take_hole; eauto.
  apply wp_bind. eapply wp_mono; [apply floyd_sift_down_wp; eauto|].
  intros hole m' (c & V & -> & Hc & Hleaf & -> & Htop & HP & Hh).
  pose proof (pm_full _ _ _ _ HP Hf) as HfV.
  destruct (Nat.eqb_spec (f + c) (f + n - 1)) as [E|E].
  - eapply wp_put_hole; eauto. split; auto. split; [congruence|].
    intros HW H0. destruct (Hh HW H0) as [H1 H2]. intros i Hi _.
    pose proof (par_lt 2 ltac:(lia) i ltac:(lia)). apply H1; lia.
  - rdv HfV (f + n - 1) y Hy.
    apply wp_bind. eapply wp_move_hole; eauto.
    set (V' := upd (f + c) (Val y) (upd (f + n - 1) (Val top) V)).
    assert (pm f (f + n) V V') as HPV.
    { unfold V'. apply pm_swap; auto; lia. }
    assert (pm f (f + n) m V') as HP' by (eapply pm_trans; eauto).
    assert (nth_error V' (f + n - 1) = Some (Val top)) as Htop'.
    { unfold V'. rewrite nth_upd_ne by lia. apply nth_upd_eq. eapply nth_lt; eauto. }
    apply wp_bind. eapply wp_put_hole; eauto.
    replace (S (f + c)) with (f + c + 1) by lia. replace (f + c + 1 - f) with (c + 1) by lia.
    eapply wp_mono.
    { apply (push_heap_wp f (n - 1) c); [lia|].
      eapply full_sub; [eapply pm_full; [exact HP'|exact Hf]|lia|lia]. }
    intros _ m2 [HP2 H2]. split; [|split].
    + eapply pm_trans; [exact HP'|]. eapply pm_widen; eauto; lia.
    + rewrite (pm_out _ _ _ _ _ HP2) by lia. congruence.
    + intros HW H0. apply H2; auto. destruct (Hh HW H0) as [H3 H4]. split.
      * intros i Hi Hic u v Hu Hv.
        pose proof (par_lt 2 ltac:(lia) i ltac:(lia)).
        destruct (Nat.eq_dec (par 2 i) c) as [Ep|Ep]. { unfold par in Ep. lia. }
        unfold V' in Hu, Hv.
        rewrite !nth_upd_ne in Hu by lia. rewrite !nth_upd_ne in Hv by lia.
        apply (H3 i); auto; lia.
      * intros i Hi Hp. unfold par in Hp. lia.
Qed.

Lemma sort_heap_wp : forall f l m, f <= l -> full f l m ->
  wp (sort_heap comp proj f l) (fun _ m' => pm f l m m' /\
     (strict_weak_order lt -> heap2 f 0 (l - f) m -> sorted_range lt f l m')) m.
Proof.
  intros f l m Hfl Hf. unfold sort_heap.
  apply wp_loop' with
    (I := fun '(it, n) m' => it = f + n /\ it <= l /\ pm f l m m' /\
       (strict_weak_order lt -> heap2 f 0 (l - f) m -> heap_sorted_inv f l 2 n m'))
    (mu := fun '(it, n) => n).
  - split; [lia|]. split; [lia|]. split; [apply pm_refl|]. intros HC Hh. split; auto. split.
    + intros i j. lia.
    + intros i j. lia.
  - lia.
  - intros [it n] m' (-> & Hit & HP & HI). destruct (Nat.ltb_spec 1 n) as [E|E].
    + pose proof (pm_full _ _ _ _ HP Hf) as Hf'.
      apply wp_bind. eapply wp_mono.
      { apply pop_heap_wp; [lia|]. eapply full_sub; [exact Hf'|lia|lia]. }
      intros _ m1 (HP1 & Hlast & Hh1). apply wp_ret. split; [|lia].
      split; [lia|]. split; [lia|]. split.
      { eapply pm_trans; [exact HP|]. eapply pm_widen; eauto. }
      intros HW H0. rdv Hf' f x Hx.
      eapply heap_sorted_step with (m := m') (x := x); eauto; try lia.
      * congruence.
      * apply Hh1; auto. apply (HI HW H0).
    + apply wp_ret. split; auto. intros HW H0. eapply heap_sorted_done; [|apply HI; auto]. lia.
Qed.

Lemma heap_sorter_wp : forall f l m, f <= l -> full f l m ->
  wp (heap_sorter comp proj f l) (fun _ m' => pm f l m m' /\
     (strict_weak_order lt -> sorted_range lt f l m')) m.
Proof.
  intros f l m Hfl Hf. unfold heap_sorter, heapsort. apply wp_bind.
  eapply wp_mono; [apply make_heap_wp; auto|]. intros _ m1 [HP1 H1].
  eapply wp_mono; [apply sort_heap_wp; auto; eapply pm_full; eauto|].
  intros _ m2 [HP2 H2]. split. { eapply pm_trans; eauto. }
  intros HC. apply H2; auto.
Qed.

Lemma heap_sorts : strict_weak_order comp -> sorts lt (heap_sorter comp proj).
Proof.
  intros HC. apply sorts_intro. intros f l m Hfl Hf.
  eapply wp_mono; [apply heap_sorter_wp; auto|]. intros _ m' [HP HS].
  split; auto. apply HS. now apply swo_by_proj.
Qed.

Lemma heap_permutes : permutes (heap_sorter comp proj).
Proof.
  apply permutes_intro. intros f l m Hfl Hf.
  eapply wp_mono; [apply heap_sorter_wp; auto|]. intros _ m' [HP HS]. auto.
Qed.

Lemma d_ary_heap_sorts : forall D, 1 <= D -> strict_weak_order comp ->
  sorts lt (d_ary_heap_sorter comp proj D).
Proof.
  intros D HD HC. apply sorts_intro. intros f l m Hfl Hf.
  eapply wp_mono; [apply d_ary_heap_wp; auto|]. intros _ m' [HP HS]. auto.
Qed.

Lemma d_ary_heap_permutes : forall D, 1 <= D -> permutes (d_ary_heap_sorter comp proj D).
Proof.
  intros D HD. apply permutes_intro. intros f l m Hfl Hf.
  eapply wp_mono; [apply d_ary_heap_wp; auto|]. intros _ m' [HP HS]. auto.
Qed.
End Heap.
