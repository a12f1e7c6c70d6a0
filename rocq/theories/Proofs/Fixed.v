(** low_comparisons_sorter and low_moves_sorter sort. *)
From Coq Require Import List Arith Lia Bool NArith Permutation.
From Verif Require Import Spec.Order Lang.Mem Spec.Sorts Proofs.Wp Proofs.OrderLib Model.Basic Proofs.Basic
  Model.Networks Model.Straight Model.FixedTables Model.Fixed Proofs.NetLib Proofs.Straight.
Import ListNotations.

Section Fixed.
Context {A T : Type} (comp : T -> T -> bool) (proj : A -> T).
Notation lt := (by_proj comp proj).

(** What a fixed-size sorter guarantees, with and without an order. *)
Definition fixed_ok (n : nat) (prog : range_prog A) : Prop := forall f l m, full f (f + n) m ->
  wp (prog f l) (fun _ m' => pm f (f + n) m m' /\ (strict_weak_order lt -> sorted_range lt f (f + n) m')) m.

Lemma code_ok : forall n c, 0 < n -> check_code n 0 0 c = true ->
  fixed_ok n (fun first _ => run_code comp proj c first).
Proof.
  intros n c Hn HC f l m HF. eapply wp_mono; [apply (run_code_wp comp proj n c f m 0 0); auto; lia|].
  intros x m' [P S]. split; auto. intros HW. apply S; auto. intros i j a b. lia.
Qed.

(** Sort [first+1 .. first+n), then a code that relies on it. *)
Lemma then_code_ok : forall n k c (prog : range_prog A), S k <= n -> 0 < n ->
  check_code n 1 (S k) c = true -> fixed_ok k prog ->
  fixed_ok n (fun first _ => prog (first + 1) (first + S k) ;; run_code comp proj c first).
Proof.
  intros n k c prog Hk Hn HC HP f l m HF. apply wp_bind.
  eapply wp_mono; [apply (HP (f + 1) (f + S k) m)|].
  { split; [destruct HF; lia|]. intros i Hi. apply HF. lia. }
  intros x m1 [P1 S1].
  assert (pm f (f + n) m m1) as P1' by (eapply pm_widen; eauto; lia).
  eapply wp_mono; [apply (run_code_wp comp proj n c f m1 1 (S k)); auto|].
  { eapply pm_full; eauto. }
  intros y m' [P2 S2]. split; [eapply pm_trans; eauto|]. intros HW. apply S2; auto.
  replace (f + S k) with (f + 1 + k) by lia. apply S1; auto.
Qed.

Lemma low_comparisons_ok : forall n, n <= 13 -> fixed_ok n (low_comparisons_sorter comp proj n).
Proof.
  assert (fixed_ok 2 (low_comparisons_2 comp proj)) as H2 by (apply code_ok; [lia|vm_compute; reflexivity]).
  assert (fixed_ok 3 (low_comparisons_3 comp proj)) as H3 by (apply code_ok; [lia|vm_compute; reflexivity]).
  assert (fixed_ok 4 (low_comparisons_4 comp proj)) as H4 by (apply then_code_ok; [lia|lia|vm_compute; reflexivity|auto]).
  assert (fixed_ok 5 (low_comparisons_5 comp proj)) as H5 by (apply code_ok; [lia|vm_compute; reflexivity]).
  assert (fixed_ok 6 (low_comparisons_6 comp proj)) as H6 by (apply code_ok; [lia|vm_compute; reflexivity]).
  assert (fixed_ok 7 (low_comparisons_7 comp proj)) as H7 by (apply then_code_ok; [lia|lia|vm_compute; reflexivity|auto]).
  assert (fixed_ok 8 (low_comparisons_8 comp proj)) as H8 by (apply then_code_ok; [lia|lia|vm_compute; reflexivity|auto]).
  assert (fixed_ok 9 (low_comparisons_9 comp proj)) as H9 by (apply code_ok; [lia|vm_compute; reflexivity]).
  assert (fixed_ok 10 (low_comparisons_10 comp proj)) as H10 by (apply then_code_ok; [lia|lia|vm_compute; reflexivity|auto]).
  assert (fixed_ok 11 (low_comparisons_11 comp proj)) as H11 by (apply then_code_ok; [lia|lia|vm_compute; reflexivity|auto]).
  assert (fixed_ok 12 (low_comparisons_12 comp proj)) as H12 by (apply (then_code_ok 12 10); [lia|lia|vm_compute; reflexivity|auto]).
  assert (fixed_ok 13 (low_comparisons_13 comp proj)) as H13 by (apply (then_code_ok 13 11); [lia|lia|vm_compute; reflexivity|auto]).
  assert (forall n, n <= 1 -> fixed_ok n empty_sorter) as H01.
  { intros n Hn f l m HF. apply wp_ret. split; [apply pm_refl|]. intros _ i j x y. lia. }
  intros n Hn. do 14 (destruct n as [|n]; [simpl; auto|]). lia.
Qed.

(** The front inserters, on a range sorted but for its first element. *)
Lemma front_insert_ok : forall n f m, n <= 11 -> full f (f + n) m ->
  wp (front_insert comp proj n f) (fun _ m' => pm f (f + n) m m' /\
    (strict_weak_order lt -> sorted_range lt (f + 1) (f + n) m -> sorted_range lt f (f + n) m')) m.
Proof.
  intros n f m Hn HF.
  destruct n as [|n]; [|destruct n as [|n]].
  - apply wp_ret. split; [apply pm_refl|]. intros _ _ i j x y. lia.
  - apply wp_ret. split; [apply pm_refl|]. intros _ _ i j x y. lia.
  - do 10 (destruct n as [|n];
      [unfold front_insert; apply run_code_wp; [lia|lia|vm_compute; reflexivity|auto]|]). lia.
Qed.

(** ** minmax_element *)
Definition is_max (f l : nat) (m : mem A) (mx : nat) : Prop :=
  f <= mx < l /\ exists v, nth_error m mx = Some (Val v) /\ range_all (fun a => lt v a = false) f l m.

Lemma is_min_ext : forall f i m mn x (c : bool), strict_weak_order lt -> is_min comp proj f i m mn ->
  f <= i -> nth_error m i = Some (Val x) ->
  (forall y, nth_error m mn = Some (Val y) -> lt x y = c) ->
  is_min comp proj f (S i) m (if c then i else mn).
Proof.
  intros f i m mn x c HW (Hmn & v & Hv & HA) Hi Hx Hc. specialize (Hc v Hv). subst c.
  destruct (lt x v) eqn:C.
  - split; [lia|]. exists x. split; auto. intros k a Hk Ha.
    destruct (Nat.eq_dec k i) as [->|Hne].
    + assert (a = x) by congruence. subst. apply lt_irrefl; auto.
    + apply (le_trans lt HW x v a); [apply lt_asym; auto|]. apply (HA k); auto; lia.
  - split; [lia|]. exists v. split; auto. intros k a Hk Ha.
    destruct (Nat.eq_dec k i) as [->|Hne]; [congruence|]. apply (HA k); auto; lia.
Qed.

(** Extending by an element that is no new minimum. *)
Lemma is_min_more : forall f i m mn x v, strict_weak_order lt -> is_min comp proj f i m mn ->
  nth_error m i = Some (Val x) -> nth_error m mn = Some (Val v) -> lt x v = false ->
  is_min comp proj f (S i) m mn.
Proof.
  intros f i m mn x v HW (Hmn & v' & Hv' & HA) Hx Hv Hc. assert (v' = v) by congruence. subst v'.
  split; [lia|]. exists v. split; auto. intros k a Hk Ha.
  destruct (Nat.eq_dec k i) as [->|Hne]; [congruence|]. apply (HA k); auto; lia.
Qed.

Lemma is_min_new : forall f i m mn x v, strict_weak_order lt -> is_min comp proj f i m mn -> f <= i ->
  nth_error m i = Some (Val x) -> nth_error m mn = Some (Val v) -> lt v x = false ->
  is_min comp proj f (S i) m i.
Proof.
  intros f i m mn x v HW (Hmn & v' & Hv' & HA) Hi Hx Hv Hc. assert (v' = v) by congruence. subst v'.
  split; [lia|]. exists x. split; auto. intros k a Hk Ha.
  destruct (Nat.eq_dec k i) as [->|Hne].
  - assert (a = x) by congruence. subst. apply lt_irrefl; auto.
  - apply (le_trans lt HW x v a); auto. apply (HA k); auto; lia.
Qed.

Lemma is_max_more : forall f i m mx x v, strict_weak_order lt -> is_max f i m mx ->
  nth_error m i = Some (Val x) -> nth_error m mx = Some (Val v) -> lt v x = false ->
  is_max f (S i) m mx.
Proof.
  intros f i m mx x v HW (Hmn & v' & Hv' & HA) Hx Hv Hc. assert (v' = v) by congruence. subst v'.
  split; [lia|]. exists v. split; auto. intros k a Hk Ha.
  destruct (Nat.eq_dec k i) as [->|Hne]; [congruence|]. apply (HA k); auto; lia.
Qed.

Lemma is_max_new : forall f i m mx x v, strict_weak_order lt -> is_max f i m mx -> f <= i ->
  nth_error m i = Some (Val x) -> nth_error m mx = Some (Val v) -> lt x v = false ->
  is_max f (S i) m i.
Proof.
  intros f i m mx x v HW (Hmn & v' & Hv' & HA) Hi Hx Hv Hc. assert (v' = v) by congruence. subst v'.
  split; [lia|]. exists x. split; auto. intros k a Hk Ha.
  destruct (Nat.eq_dec k i) as [->|Hne].
  - assert (a = x) by congruence. subst. apply lt_irrefl; auto.
  - apply (le_trans lt HW a v x); auto. apply (HA k); auto; lia.
Qed.

Lemma unchecked_minmax_element_wp : forall f l m, S f < l -> full f l m ->
  wp (unchecked_minmax_element comp proj f l)
     (fun '(mn, mx) m' => m' = m /\ f <= mn < l /\ f <= mx < l /\
        (strict_weak_order lt -> is_min comp proj f l m mn /\ is_max f l m mx /\ mn <> mx)) m.
Proof.
  intros f l m Hfl HF. unfold unchecked_minmax_element.
  destruct (Nat.eqb_spec f l); [lia|]. destruct (Nat.eqb_spec (S f) l); [lia|]. simpl orb. cbv iota.
  apply wp_loop' with
    (I := fun '(i, mn, mx) m' => m' = m /\ f <= i < l /\ f <= mn <= i /\ f <= mx <= i /\
       (strict_weak_order lt -> is_min comp proj f (S i) m mn /\ is_max f (S i) m mx /\ (i = f \/ mn <> mx)))
    (mu := fun '(i, _, _) => l - i).
  - rdv HF f v Hv. split; auto. split; [lia|]. split; [lia|]. split; [lia|]. intros HW.
    split; [|split]; auto; split; try lia; exists v; (split; [auto|]); intros k a Hk Ha;
      replace k with f in Ha by lia; replace a with v by congruence; apply lt_irrefl; auto.
  - lia.
  - intros [[i mn] mx] m' (-> & Hi & Hmn & Hmx & HI).
    destruct (Nat.eqb_spec (S i) l) as [E|E].
    { apply wp_ret. subst l. split; auto. split; [lia|]. split; [lia|].
      intros HW. destruct (HI HW) as (H1 & H2 & H3). split; auto. split; auto. destruct H3; auto; lia. }
    rdv HF (S i) x Hx. rdv HF mn u Hu. rdv HF mx w Hw.
    assert (strict_weak_order lt -> (i = f -> u = w)) as Huw.
    { intros _ ->. assert (mn = f) by lia. assert (mx = f) by lia. subst. congruence. }
    destruct (Nat.eqb_spec (S (S i)) l) as [E2|E2].
    { apply wp_bind. eapply wp_less_at; eauto. subst l. destruct (lt x u) eqn:C1.
      - apply wp_ret. split; auto. split; [lia|]. split; [lia|]. intros HW.
        destruct (HI HW) as (H1 & H2 & H3).
        split; [eapply is_min_new; eauto; [lia|apply lt_asym; auto]|]. split; [|lia].
        eapply is_max_more; eauto.
        (* x < u = min <= w *)
        destruct H1 as (_ & u' & Hu' & HA). assert (u' = u) by congruence. subst u'.
        apply lt_asym; auto. apply (lt_le_trans lt HW x u w); auto. apply (HA mx); auto; lia.
      - apply wp_bind. eapply wp_less_at; eauto. destruct (lt x w) eqn:C2; simpl negb; cbv iota; apply wp_ret;
          (split; [auto|]); (split; [lia|]); (split; [lia|]); intros HW; destruct (HI HW) as (H1 & H2 & H3).
        + split; [eapply is_min_more; eauto|]. split; [eapply is_max_more; eauto; apply lt_asym; auto|].
          destruct H3 as [->|]; auto. rewrite (Huw HW) in C1 by auto. congruence.
        + split; [eapply is_min_more; eauto|]. split; [eapply is_max_new; eauto; lia|lia]. }
    rdv HF (S (S i)) y Hy.
    apply wp_bind. eapply wp_less_at; eauto. destruct (lt y x) eqn:C.
    + apply wp_bind. eapply wp_less_at; eauto. apply wp_bind. eapply wp_less_at; eauto. apply wp_ret.
      split; [|lia]. split; auto. split; [lia|]. split; [destruct (lt y u); lia|].
      split; [destruct (lt x w); simpl; lia|]. intros HW. destruct (HI HW) as (H1 & H2 & H3).
      assert (is_min comp proj f (S (S (S i))) m (if lt y u then S (S i) else mn)) as Hmin.
      { destruct (lt y u) eqn:C1.
        - assert (is_min comp proj f (S (S i)) m (if lt x u then S i else mn)) as HM.
          { apply (is_min_ext f (S i) m mn x); auto; [lia|]. intros ? ?. congruence. }
          destruct (lt x u) eqn:C2.
          + eapply is_min_new; eauto; [lia|]. apply lt_asym; auto.
          + eapply is_min_new; eauto; [lia|]. apply lt_asym; auto.
        - assert (lt x u = false) as C2.
          { destruct (lt x u) eqn:C2; auto. rewrite (lt_trans lt HW y x u) in C1; auto. }
          eapply is_min_more; eauto. eapply is_min_more; eauto. }
      assert (is_max f (S (S (S i))) m (if negb (lt x w) then S i else mx)) as Hmax.
      { destruct (lt x w) eqn:C1; simpl.
        - eapply is_max_more; eauto; [eapply is_max_more; eauto; apply lt_asym; auto|].
          apply lt_asym; auto. eapply lt_trans; eauto.
        - eapply is_max_more with (v := x); eauto; [eapply is_max_new; eauto; lia|apply lt_asym; auto]. }
      split; auto. split; auto. right.
      destruct (lt y u) eqn:C1, (lt x w) eqn:C2; simpl; try lia.
      destruct H3 as [->|]; auto. rewrite (Huw HW) in C1 by auto.
      rewrite (lt_trans lt HW y x w) in C1; auto; discriminate.
    + apply wp_bind. eapply wp_less_at; eauto. apply wp_bind. eapply wp_less_at; eauto. apply wp_ret.
      split; [|lia]. split; auto. split; [lia|]. split; [destruct (lt x u); lia|].
      split; [destruct (lt y w); simpl; lia|]. intros HW. destruct (HI HW) as (H1 & H2 & H3).
      assert (is_min comp proj f (S (S (S i))) m (if lt x u then S i else mn)) as Hmin.
      { destruct (lt x u) eqn:C1.
        - eapply is_min_more; [auto| |eauto|apply Hx|auto].
          eapply is_min_new; eauto; [lia|apply lt_asym; auto].
        - eapply is_min_more; eauto; [eapply is_min_more; eauto|].
          apply (le_trans lt HW u x y); auto. }
      assert (is_max f (S (S (S i))) m (if negb (lt y w) then S (S i) else mx)) as Hmax.
      { destruct (lt y w) eqn:C1; simpl.
        - eapply is_max_more; eauto; [eapply is_max_more; eauto|apply lt_asym; auto].
          apply lt_asym; auto. apply (le_lt_trans lt HW x y w); auto.
        - destruct (lt x w) eqn:C2.
          + eapply is_max_new with (mx := mx); eauto; [|lia]. eapply is_max_more; eauto. apply lt_asym; auto.
          + eapply is_max_new with (mx := S i); eauto; [|lia]. eapply is_max_new; eauto. lia. }
      split; auto. split; auto. right.
      destruct (lt x u) eqn:C1, (lt y w) eqn:C2; simpl; try lia.
      destruct H3 as [->|]; auto. rewrite (Huw HW) in C1 by auto.
      rewrite (le_lt_trans lt HW x y w) in C1; auto; discriminate.
Qed.

(** ** low_moves_sorter *)
Definition ends (f l : nat) (m : mem A) : Prop :=
  exists u w, nth_error m f = Some (Val u) /\ nth_error m (l - 1) = Some (Val w) /\
    range_all (fun a => lt a u = false) f l m /\ range_all (fun a => lt w a = false) f l m.

Lemma cond_swap_wp : forall f l m (b : bool) i j (Q : unit -> mem A -> Prop), full f l m -> f <= i < l -> f <= j < l ->
  (b = true -> i = j) ->
  (forall m' x y, nth_error m i = Some (Val x) -> nth_error m j = Some (Val y) ->
     pm f l m m' -> nth_error m' i = Some (Val y) -> nth_error m' j = Some (Val x) ->
     (forall k, k <> i -> k <> j -> nth_error m' k = nth_error m k) -> Q tt m') ->
  wp (if b then ret tt else swap i j) Q m.
Proof.
  intros f l m b i j Q HF Hi Hj Hb HQ. rdv HF i x Hx. rdv HF j y Hy. destruct b.
  - rewrite Hb in * by auto. assert (x = y) by congruence. subst. apply wp_ret.
    eapply HQ; eauto using pm_refl.
  - eapply wp_swap; eauto.
    assert (j < length m) by (eapply nth_lt; eauto). assert (i < length m) by (eapply nth_lt; eauto).
    apply (HQ _ x y); auto.
    + apply pm_swap; auto.
    + destruct (Nat.eq_dec j i) as [->|].
      * rewrite nth_upd_eq by (rewrite upd_length; auto). congruence.
      * rewrite nth_upd_ne, nth_upd_eq by auto. auto.
    + rewrite nth_upd_eq by (rewrite upd_length; auto). auto.
    + intros k H1 H2. rewrite !nth_upd_ne; auto.
Qed.

Lemma placement_wp : forall f l m mn mx, S f < l -> full f l m -> f <= mn < l -> f <= mx < l ->
  wp (if (mx =? f) && (mn =? l - 1) then
         if mn =? mx then ret tt else swap mn mx
       else if mx =? f then
         (if l - 1 =? mx then ret tt else swap (l - 1) mx) ;;
         (if f =? mn then ret tt else swap f mn)
       else
         (if f =? mn then ret tt else swap f mn) ;;
         (if l - 1 =? mx then ret tt else swap (l - 1) mx))
     (fun _ m' => pm f l m m' /\
        (strict_weak_order lt -> is_min comp proj f l m mn -> is_max f l m mx -> mn <> mx -> ends f l m')) m.
Proof.
  intros f l m mn mx Hl HF Hmn Hmx.
  assert (forall m' u w, pm f l m m' -> nth_error m mn = Some (Val u) -> nth_error m mx = Some (Val w) ->
    nth_error m' f = Some (Val u) -> nth_error m' (l - 1) = Some (Val w) ->
    is_min comp proj f l m mn -> is_max f l m mx -> ends f l m') as fin.
  { intros m' u w HP Hu Hw Hu' Hw' (_ & u0 & Hu0 & HA) (_ & w0 & Hw0 & HB).
    assert (u0 = u) by congruence. assert (w0 = w) by congruence. subst.
    exists u, w. split; auto. split; auto. destruct HF.
    split; eapply pm_range_all; eauto. }
  destruct (Nat.eqb_spec mx f) as [E1|E1]; [destruct (Nat.eqb_spec mn (l - 1)) as [E2|E2]|]; simpl andb; cbv iota.
  - apply (cond_swap_wp f l m (mn =? mx) mn mx); auto; [apply Nat.eqb_eq|].
    intros m' x y Hx Hy HP H1 H2 _. split; auto. intros HW HM HX _. subst. eapply fin; eauto.
  - apply wp_bind. apply (cond_swap_wp f l m (l - 1 =? mx) (l - 1) mx); auto; [lia|apply Nat.eqb_eq|].
    intros m1 x y Hx Hy HP H1 H2 HO.
    apply (cond_swap_wp f l m1 (f =? mn) f mn); auto; [eapply pm_full; eauto|lia|apply Nat.eqb_eq|].
    intros m2 x' y' Hx' Hy' HP' H1' H2' HO'. split; [eapply pm_trans; eauto|].
    intros HW HM HX Hne. subst mx. eapply fin with (u := y') (w := y); eauto.
    + eapply pm_trans; eauto.
    + rewrite <- HO; auto.
    + rewrite HO' by lia. auto.
  - apply wp_bind. apply (cond_swap_wp f l m (f =? mn) f mn); auto; [lia|apply Nat.eqb_eq|].
    intros m1 x y Hx Hy HP H1 H2 HO.
    apply (cond_swap_wp f l m1 (l - 1 =? mx) (l - 1) mx); auto; [eapply pm_full; eauto|lia|apply Nat.eqb_eq|].
    intros m2 x' y' Hx' Hy' HP' H1' H2' HO'. split; [eapply pm_trans; eauto|].
    intros HW HM HX Hne. eapply fin with (u := y) (w := y'); eauto.
    + eapply pm_trans; eauto.
    + rewrite <- HO; auto.
    + rewrite HO' by lia. auto.
Qed.

Lemma low_moves_ok : forall n f m, full f (f + n) m ->
  wp (low_moves_sorter comp proj n f (f + n))
     (fun _ m' => pm f (f + n) m m' /\ (strict_weak_order lt -> sorted_range lt f (f + n) m')) m.
Proof.
  assert (fixed_ok 3 (fun first _ => run_code comp proj low_moves3 first)) as H3
    by (apply code_ok; [lia|vm_compute; reflexivity]).
  induction n as [n IH] using lt_wf_ind. intros f m HF.
  destruct n as [|[|[|[|[|n]]]]].
  - apply wp_ret. split; [apply pm_refl|]. intros _ i j x y. lia.
  - apply wp_ret. split; [apply pm_refl|]. intros _ i j x y. lia.
  - cbn [low_moves_sorter]. rdv HF f x Hx. rdv HF (f + 1) y Hy. eapply wp_iter_swap_if; eauto.
    assert (f + 1 < length m) by (eapply nth_lt; eauto).
    destruct (lt y x) eqn:C.
    + split; [apply pm_swap; auto; lia|]. intros HW i j a b H1 H2 H4 Ha Hb.
      assert (i = f) by lia. assert (j = f + 1) by lia. subst. upd_cases. subst. apply lt_asym; auto.
    + split; [apply pm_refl|]. intros HW i j a b H1 H2 H4 Ha Hb.
      assert (i = f) by lia. assert (j = f + 1) by lia. subst. congruence.
  - cbn [low_moves_sorter]. apply (H3 f 0 m); auto.
  - cbn [low_moves_sorter]. apply wp_bind. unfold min_element.
    destruct (Nat.eqb_spec f (f + 4)); [lia|].
    eapply wp_mono; [apply (unchecked_min_element_wp comp proj f (f + 4) m); auto; lia|].
    intros mn m0 (-> & Hmn & HM). apply wp_bind.
    apply (cond_swap_wp f (f + 4) m (mn =? f) mn f); auto; [lia|apply Nat.eqb_eq|].
    intros m1 x y Hx Hy HP H1 H2 HO.
    assert (full f (f + 4) m1) as HF1 by (eapply pm_full; eauto).
    eapply wp_mono; [apply (H3 (f + 1) 0 m1)|].
    { split; [destruct HF1; lia|]. intros k Hk. apply HF1. lia. }
    intros ? m2 [P2 S2]. split.
    { eapply pm_trans; eauto. eapply pm_widen; eauto; lia. }
    intros HW. destruct (HM HW) as (_ & v & Hv & HA). assert (v = x) by congruence. subst v.
    assert (range_all (fun a => lt a x = false) f (f + 4) m2) as HA2.
    { eapply pm_range_all; [|apply HF1|eapply pm_range_all; [|apply HF|]]; eauto.
      eapply pm_widen; eauto; lia. }
    intros i j a b H4 H5 H6 Ha Hb. destruct (Nat.eq_dec i f) as [->|Hne].
    + rewrite (pm_out _ _ _ _ f P2) in Ha by lia. assert (a = x) by congruence. subst.
      apply (HA2 j); auto; lia.
    + apply (S2 HW i j); auto; lia.
  - change (low_moves_sorter comp proj (S (S (S (S (S n))))) f (f + S (S (S (S (S n)))))) with
      (let* (mn, mx) := unchecked_minmax_element comp proj f (f + S (S (S (S (S n))))) in
       (if (mx =? f) && (mn =? f + S (S (S (S (S n)))) - 1) then
         if mn =? mx then ret tt else swap mn mx
       else if mx =? f then
         (if f + S (S (S (S (S n)))) - 1 =? mx then ret tt else swap (f + S (S (S (S (S n)))) - 1) mx) ;;
         (if f =? mn then ret tt else swap f mn)
       else
         (if f =? mn then ret tt else swap f mn) ;;
         (if f + S (S (S (S (S n)))) - 1 =? mx then ret tt else swap (f + S (S (S (S (S n)))) - 1) mx)) ;;
      low_moves_sorter comp proj (S (S (S n))) (S f) (f + S (S (S (S (S n)))) - 1)).
    assert (exists N, N = S (S (S n)) /\ 3 <= N) as (N & EN & HN3) by (exists (S (S (S n))); lia).
    rewrite <- EN in *. remember (f + S (S N)) as l eqn:El.
    apply wp_bind. eapply wp_mono; [apply (unchecked_minmax_element_wp f l m); auto; lia|].
    intros [mn mx] m0 (-> & Hmn & Hmx & HM). apply wp_bind.
    eapply wp_mono; [apply (placement_wp f l m mn mx); auto; lia|].
    intros ? m1 [P1 HE].
    assert (full f l m1) as HF1 by (eapply pm_full; eauto).
    replace (l - 1) with (S f + N) by lia.
    eapply wp_mono; [apply (IH N); [lia|]|].
    { split; [destruct HF1; lia|]. intros k Hk. apply HF1. lia. }
    intros ? m2 [P2 S2].
    assert (pm f l m1 m2) as P2' by (eapply pm_widen; eauto; lia).
    split; [eapply pm_trans; eauto|].
    intros HW. destruct (HM HW) as (HMn & HMx & Hne).
    destruct (HE HW HMn HMx Hne) as (u & w & Hu & Hw & HAu & HAw).
    assert (nth_error m2 f = Some (Val u)) as Hu2 by (rewrite (pm_out _ _ _ _ f P2); auto; lia).
    assert (nth_error m2 (l - 1) = Some (Val w)) as Hw2 by (rewrite (pm_out _ _ _ _ (l - 1) P2); auto; lia).
    assert (range_all (fun a => lt a u = false) f l m2) as HAu2 by (eapply pm_range_all; eauto; apply HF1).
    assert (range_all (fun a => lt w a = false) f l m2) as HAw2 by (eapply pm_range_all; eauto; apply HF1).
    intros i j a b H4 H5 H6 Ha Hb. destruct (Nat.eq_dec i f) as [->|Hnf].
    { assert (a = u) by congruence. subst. apply (HAu2 j); auto; lia. }
    destruct (Nat.eq_dec j (l - 1)) as [->|Hnl].
    { assert (b = w) by congruence. subst. apply (HAw2 i); auto; lia. }
    apply (S2 HW i j); auto; lia.
Qed.
End Fixed.
