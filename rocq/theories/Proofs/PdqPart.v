(** The partitions of pdqsort. *)
From Coq Require Import List Arith Lia Permutation Bool.
From Verif Require Import Spec.Order Lang.Mem Spec.Sorts Proofs.Wp Proofs.OrderLib Model.Basic Proofs.Basic
  Proofs.IndexLib Model.Indirect Proofs.Indirect Model.Pdq.
Import ListNotations.

(** * Scans *)
Section Scans.
Context {A : Type}.
Implicit Types m W : mem A.
Variable p : A -> bool.
Notation T b := (holds (fun x => p x = b)).

Lemma scan_up_wp : forall bound first k m, first < k -> k <= first + bound -> full (S first) (S k) m -> T false m k ->
  wp (scan_up p bound first) (fun r m' => m' = m /\ first < r <= k /\ T false m r /\
    forall j, first < j < r -> T true m j) m.
Proof.
  intros bound first k m Hk Hb Hf Hs. unfold scan_up.
  apply wp_loop' with (I := fun i m' => m' = m /\ first <= i < k /\ forall j, first < j <= i -> T true m j)
    (mu := fun i => k - i).
  - cj; auto; try lia; intros; lia.
  - lia.
  - intros i m' (-> & Hi & HT). apply wp_bind. rdv Hf (S i) x Hx. eapply wp_get; eauto.
    destruct (p x) eqn:E; apply wp_ret.
    + assert (i <> k - 1).
      { intros ->. replace (S (k - 1)) with k in Hx by lia. apply (holds_val _ _ _ _ Hs) in Hx. congruence. }
      cj; auto; try lia.
      intros j Hj. destruct (Nat.eq_dec j (S i)) as [->|]; [exists x; auto|]. apply HT; lia.
    + cj; auto; try lia. { exists x; auto. } intros j Hj. apply HT; lia.
Qed.

Lemma scan_down_wp : forall last k m, k < last -> full k last m -> T false m k ->
  wp (scan_down p last) (fun r m' => m' = m /\ k <= r < last /\ T false m r /\
    forall j, r < j < last -> T true m j) m.
Proof.
  intros last k m Hk Hf Hs. unfold scan_down.
  apply wp_loop' with (I := fun i m' => m' = m /\ k < i <= last /\ forall j, i <= j < last -> T true m j)
    (mu := fun i => i).
  - cj; auto; try lia; intros; lia.
  - lia.
  - intros i m' (-> & Hi & HT). destruct (Nat.eqb_spec i 0); [lia|]. apply wp_bind. rdv Hf (i - 1) x Hx. eapply wp_get; eauto.
    destruct (p x) eqn:E; apply wp_ret.
    + assert (i - 1 <> k).
      { intros <-. apply (holds_val _ _ _ _ Hs) in Hx. congruence. }
      cj; auto; try lia.
      intros j Hj. destruct (Nat.eq_dec j (i - 1)) as [->|]; [exists x; auto|]. apply HT; lia.
    + cj; auto; try lia. { exists x; auto. } intros j Hj. apply HT; lia.
Qed.

Lemma scan_down_guarded_wp : forall first last m, first <= last -> full first last m ->
  wp (scan_down_guarded p first last) (fun r m' => m' = m /\ first <= r <= last /\
    (forall j, r < j < last -> T true m j) /\ (first < r -> r < last /\ T false m r)) m.
Proof.
  intros first last m Hfl Hf. unfold scan_down_guarded.
  apply wp_loop' with (I := fun i m' => m' = m /\ first <= i <= last /\ forall j, i <= j < last -> T true m j)
    (mu := fun i => i).
  - cj; auto; try lia; intros; lia.
  - lia.
  - intros i m' (-> & Hi & HT). destruct (Nat.ltb_spec first i).
    + apply wp_bind. rdv Hf (i - 1) x Hx. eapply wp_get; eauto.
      destruct (p x) eqn:E; apply wp_ret.
      * cj; auto; try lia.
        intros j Hj. destruct (Nat.eq_dec j (i - 1)) as [->|]; [exists x; auto|]. apply HT; lia.
      * cj; auto; try lia. { intros j Hj. apply HT; lia. } intros _. split; [lia|]. exists x; auto.
    + apply wp_ret. cj; auto; try lia. intros j Hj. apply HT; lia.
Qed.

Lemma scan_up_guarded_wp : forall first last m, first <= last -> full (S first) (S last) m ->
  wp (scan_up_guarded p first last) (fun r m' => m' = m /\ first <= r <= last /\
    (forall j, first < j < r -> T true m j) /\ (r < last -> first < r /\ T false m r)) m.
Proof.
  intros first last m Hfl Hf. unfold scan_up_guarded.
  apply wp_loop' with (I := fun i m' => m' = m /\ first <= i <= last /\ forall j, first < j <= i -> T true m j)
    (mu := fun i => last - i).
  - cj; auto; try lia; intros; lia.
  - lia.
  - intros i m' (-> & Hi & HT). destruct (Nat.ltb_spec i last).
    + apply wp_bind. rdv Hf (S i) x Hx. eapply wp_get; eauto.
      destruct (p x) eqn:E; apply wp_ret.
      * cj; auto; try lia.
        intros j Hj. destruct (Nat.eq_dec j (S i)) as [->|]; [exists x; auto|]. apply HT; lia.
      * cj; auto; try lia. { intros j Hj. apply HT; lia. } intros _. split; [lia|]. exists x; auto.
    + apply wp_ret. cj; auto; try lia. intros j Hj. apply HT; lia.
Qed.
End Scans.

(** * Offset blocks *)
Section Offsets.
Context {A : Type}.
Implicit Types m W : mem A.

(** The array holds, from [start], offsets that [f] maps to the positions [PL]. *)
Definition slots (f : nat -> nat) (offs : list (option nat)) (start : nat) (PL : list nat) : Prop :=
  forall k q, nth_error PL k = Some q -> exists o, nth_error offs (start + k) = Some (Some o) /\ f o = q.

Lemma wp_rd_init : forall f offs start PL k q (Q : nat -> mem A -> Prop) m,
  slots f offs start PL -> nth_error PL k = Some q ->
  (forall o, f o = q -> Q o m) -> wp (rd_init offs (start + k)) Q m.
Proof.
  intros f offs start PL k q Q m HS Hk HQ. destruct (HS _ _ Hk) as (o & Ho & E).
  unfold rd_init. apply wp_bind. eapply wp_rd; eauto. apply wp_ret. auto.
Qed.

Definition distinct (PL PR : list nat) : Prop :=
  (forall i j q, nth_error PL i = Some q -> nth_error PL j = Some q -> i = j) /\
  (forall i j q, nth_error PR i = Some q -> nth_error PR j = Some q -> i = j) /\
  (forall q, In q PL -> ~ In q PR).

Variables (P1 P2 : A -> Prop).

(** The first [i] pairs are exchanged. *)
Definition exchanged (f e i : nat) (PL PR : list nat) W m : Prop :=
  pm f e W m /\
  (forall k q, nth_error PL k = Some q -> if k <? i then holds P2 m q else holds P1 m q) /\
  (forall k q, nth_error PR k = Some q -> if k <? i then holds P1 m q else holds P2 m q) /\
  (forall k, ~ In k PL -> ~ In k PR -> nth_error m k = nth_error W k).

Lemma exchanged_step : forall f e i PL PR W m m' l r,
  exchanged f e i PL PR W m -> distinct PL PR -> nth_error PL i = Some l -> nth_error PR i = Some r ->
  pm f e m m' -> swapped l r m m' ->
  exchanged f e (S i) PL PR W m'.
Proof.
  intros f e i PL PR W m m' l r (HP & H1 & H2 & H3) (D1 & D2 & D3) Hl Hr HP' HS.
  assert (In l PL) as Il by (eapply nth_error_In; eauto).
  assert (In r PR) as Ir by (eapply nth_error_In; eauto).
  split; [eapply pm_trans; eauto|]. split; [|split].
  - intros k q Hk. assert (In q PL) as Iq by (eapply nth_error_In; eauto).
    destruct (Nat.ltb_spec k (S i)).
    + destruct (Nat.eq_dec k i) as [->|].
      * assert (q = l) as -> by congruence.
        eapply holds_ext; [rewrite HS, tr_l; reflexivity|].
        specialize (H2 _ _ Hr). now rewrite Nat.ltb_irrefl in H2.
      * specialize (H1 _ _ Hk). destruct (Nat.ltb_spec k i); [|lia].
        eapply holds_ext; [|exact H1]. rewrite HS, tr_o; auto.
        { intros ->. assert (k = i) by (eapply D1; eauto). lia. }
        { intros ->. eapply D3; eauto. }
    + specialize (H1 _ _ Hk). destruct (Nat.ltb_spec k i); [lia|].
      eapply holds_ext; [|exact H1]. rewrite HS, tr_o; auto.
      { intros ->. assert (k = i) by (eapply D1; eauto). lia. }
      { intros ->. eapply D3; eauto. }
  - intros k q Hk. assert (In q PR) as Iq by (eapply nth_error_In; eauto).
    destruct (Nat.ltb_spec k (S i)).
    + destruct (Nat.eq_dec k i) as [->|].
      * assert (q = r) as -> by congruence.
        eapply holds_ext; [rewrite HS, tr_r; reflexivity|].
        specialize (H1 _ _ Hl). now rewrite Nat.ltb_irrefl in H1.
      * specialize (H2 _ _ Hk). destruct (Nat.ltb_spec k i); [|lia].
        eapply holds_ext; [|exact H2]. rewrite HS, tr_o; auto.
        { intros ->. eapply D3; eauto. }
        { intros ->. assert (k = i) by (eapply D2; eauto). lia. }
    + specialize (H2 _ _ Hk). destruct (Nat.ltb_spec k i); [lia|].
      eapply holds_ext; [|exact H2]. rewrite HS, tr_o; auto.
      { intros ->. eapply D3; eauto. }
      { intros ->. assert (k = i) by (eapply D2; eauto). lia. }
  - intros k N1 N2. rewrite HS, tr_o; auto; intros ->; contradiction.
Qed.

(** Moving the hole from one exchanged right cell to a pending left cell keeps the picture. *)
Lemma exchanged_shift : forall f e i PL PR W m m' l r r',
  exchanged f e (S i) PL PR W m -> distinct PL PR -> nth_error PR i = Some r -> nth_error PL (S i) = Some l ->
  nth_error PR (S i) = Some r' -> holds P1 m l ->
  pm f e m m' -> swapped r l m m' ->
  exchanged f e (S i) PL PR W m'.
Proof.
  intros f e i PL PR W m m' l r r' (HP & H1 & H2 & H3) (D1 & D2 & D3) Hr Hl Hr' Hh HP' HS.
  assert (In l PL) as Il by (eapply nth_error_In; eauto).
  assert (In r PR) as Ir by (eapply nth_error_In; eauto).
  split; [eapply pm_trans; eauto|]. split; [|split].
  - intros k q Hk. assert (In q PL) as Iq by (eapply nth_error_In; eauto).
    destruct (Nat.eq_dec k (S i)) as [->|].
    + assert (q = l) as -> by congruence. rewrite Nat.ltb_irrefl.
      eapply holds_ext; [rewrite HS, tr_r; reflexivity|].
      specialize (H2 _ _ Hr). destruct (Nat.ltb_spec i (S i)); [auto|lia].
    + specialize (H1 _ _ Hk). assert (nth_error m' q = nth_error m q) as E.
      { rewrite HS, tr_o; auto.
        { intros ->. eapply D3; eauto. }
        { intros ->. assert (k = S i) by (eapply D1; eauto). lia. } }
      destruct (k <? S i); eapply holds_ext; eauto.
  - intros k q Hk. assert (In q PR) as Iq by (eapply nth_error_In; eauto).
    destruct (Nat.eq_dec k i) as [->|].
    + assert (q = r) as -> by congruence. destruct (Nat.ltb_spec i (S i)); [|lia].
      eapply holds_ext; [rewrite HS, tr_l; reflexivity|]. auto.
    + specialize (H2 _ _ Hk). assert (nth_error m' q = nth_error m q) as E.
      { rewrite HS, tr_o; auto.
        { intros ->. assert (k = i) by (eapply D2; eauto). lia. }
        { intros ->. eapply D3; eauto. } }
      destruct (k <? S i); eapply holds_ext; eauto.
  - intros k N1 N2. rewrite HS, tr_o; auto; intros ->; contradiction.
Qed.

Lemma nth_some : forall X (l : list X) i, i < length l -> exists x, nth_error l i = Some x.
Proof. intros. destruct (nth_error l i) eqn:E; eauto. apply nth_error_None in E. lia. Qed.

Lemma swap_offsets_wp : forall f e first last offsets_l offsets_r start_l start_r num use_swaps PL PR W,
  slots (fun o => first + o) offsets_l start_l PL -> slots (fun o => last - o) offsets_r start_r PR ->
  distinct PL PR -> num <= length PL -> num <= length PR -> full f e W ->
  (forall q, In q PL -> f <= q < e /\ holds P1 W q) -> (forall q, In q PR -> f <= q < e /\ holds P2 W q) ->
  wp (swap_offsets first last offsets_l offsets_r start_l start_r num use_swaps)
    (fun _ m' => exchanged f e num PL PR W m') W.
Proof.
  intros f e first last ol or sl sr num us PL PR W SL SR HD HnL HnR Hf HPL HPR.
  assert (exchanged f e 0 PL PR W W) as H0.
  { split; [apply pm_refl|]. cj; auto.
    - intros k q Hk. apply (HPL q). eapply nth_error_In; eauto.
    - intros k q Hk. apply (HPR q). eapply nth_error_In; eauto. }
  assert (forall i, i < num -> exists l r, nth_error PL i = Some l /\ nth_error PR i = Some r /\
     f <= l < e /\ f <= r < e /\ l <> r) as HB.
  { intros i Hi. destruct (nth_some _ PL i) as (l & Hl); [lia|]. destruct (nth_some _ PR i) as (r & Hr); [lia|].
    exists l, r. pose proof (nth_error_In _ _ Hl) as Il. pose proof (nth_error_In _ _ Hr) as Ir.
    cj; auto; try apply (HPL l Il); try apply (HPR r Ir).
    intros ->. destruct HD as (_ & _ & D3). eapply D3; eauto. }
  unfold swap_offsets. destruct us.
  - apply wp_loop' with (I := fun i m => i <= num /\ exchanged f e i PL PR W m) (mu := fun i => num - i).
    + split; [lia|auto].
    + lia.
    + intros i m [Hi HE]. destruct (Nat.ltb_spec i num).
      * destruct (HB i) as (l & r & Hl & Hr & Bl & Br & Hne); auto.
        apply wp_bind. eapply wp_rd_init; eauto. intros o Eo.
        apply wp_bind. eapply wp_rd_init; eauto. intros o' Eo'.
        simpl in Eo, Eo'. rewrite Eo, Eo'. apply wp_bind.
        eapply wp_swap_pm with (f := f) (l := e); auto. { eapply pm_full; [apply HE|auto]. }
        intros m' HP HS. apply wp_ret. split; [|lia]. split; [lia|].
        eapply exchanged_step; eauto.
      * apply wp_ret. replace num with i by lia. auto.
  - destruct (Nat.ltb_spec 0 num); [|apply wp_ret; now replace num with 0 by lia].
    destruct (HB 0) as (l & r & Hl & Hr & Bl & Br & Hne); auto.
    apply wp_bind. rewrite <- (Nat.add_0_r sl) at 1. eapply wp_rd_init; eauto. intros o Eo.
    apply wp_bind. rewrite <- (Nat.add_0_r sr) at 1. eapply wp_rd_init; eauto. intros o' Eo'.
    simpl in Eo, Eo'. rewrite Eo, Eo'.
    rdv Hf l t Ht. apply wp_bind. eapply wp_take_hole; eauto.
    apply wp_bind. eapply wp_move_hole_pm; eauto.
    intros m1 HP1 HS1 Ht1.
    assert (P1 t) as HPt. { pose proof (nth_error_In _ _ Hl) as Il. eapply holds_val; [apply (HPL l Il)|auto]. }
    apply wp_bind.
    
    apply wp_loop' with (I := fun '(i, r) m => exists j V, i = S j /\ i <= num /\ nth_error PR j = Some r /\
        m = upd r Moved V /\ exchanged f e i PL PR W V /\ nth_error V r = Some (Val t)) (mu := fun '(i, _) => num - i).
    + exists 0, m1. cj; auto. eapply exchanged_step; eauto.
    + lia.
    + intros [i r0] m (j & V & -> & Hi & Hr0 & -> & HE & Hv).
      assert (full f e V) as HfV by (eapply pm_full; [apply HE|auto]).
      destruct (Nat.ltb_spec (S j) num).
      * destruct (HB (S j)) as (l2 & r2 & Hl2 & Hr2 & Bl2 & Br2 & Hne2); auto.
        assert (f <= r0 < e) as Br0 by (apply HPR; eapply nth_error_In; eauto).
        destruct HD as (D1 & D2 & D3).
        assert (r0 <> l2). { intros ->. apply (D3 l2); eapply nth_error_In; eauto. }
        apply wp_bind. eapply wp_rd_init; eauto. intros o2 Eo2. simpl in Eo2. rewrite Eo2.
        apply wp_bind. eapply wp_move_hole_pm; eauto.
        intros m2 HP2 HS2 Ht2.
        assert (exchanged f e (S j) PL PR W m2) as HE2.
        { eapply exchanged_shift; eauto. split; auto.
          destruct HE as (_ & HE1 & _). specialize (HE1 _ _ Hl2). now rewrite Nat.ltb_irrefl in HE1. }
        apply wp_bind. eapply wp_rd_init; eauto. intros o3 Eo3. simpl in Eo3. rewrite Eo3.
        apply wp_bind. eapply wp_move_hole_pm; eauto. { eapply pm_full; eauto. }
        intros m3 HP3 HS3 Ht3. apply wp_ret. split; [|lia].
        exists (S j), m3. cj; auto. eapply exchanged_step; eauto. split; auto.
      * apply wp_ret. replace num with (S j) by lia.
        eapply wp_put_hole; eauto.
Qed.
End Offsets.

(** * Block partitioning *)
Definition incr (PL : list nat) : Prop :=
  forall i j p q, i < j -> nth_error PL i = Some p -> nth_error PL j = Some q -> p < q.
Definition decr (PL : list nat) : Prop :=
  forall i j p q, i < j -> nth_error PL i = Some p -> nth_error PL j = Some q -> q < p.

Lemma nth_snoc : forall X (l : list X) x k y, nth_error (l ++ [x]) k = Some y ->
  (k < length l /\ nth_error l k = Some y) \/ (k = length l /\ y = x).
Proof.
  intros X l x k y H. destruct (Nat.lt_ge_cases k (length l)).
  - left. rewrite nth_error_app1 in H; auto.
  - right. assert (k < length (l ++ [x])) by (eapply nth_lt; eauto). rewrite app_length in *. simpl in *.
    assert (k = length l) as -> by lia. rewrite nth_mid in H. split; congruence.
Qed.

Lemma incr_snoc : forall PL x, incr PL -> (forall p, In p PL -> p < x) -> incr (PL ++ [x]).
Proof.
  intros PL x HI HX i j p q Hij Hi Hj.
  apply nth_snoc in Hi as [[Li Hi]|[-> ->]]; apply nth_snoc in Hj as [[Lj Hj]|[-> ->]]; try lia.
  - exact (HI _ _ _ _ Hij Hi Hj).
  - apply HX. eapply nth_error_In; eauto.
Qed.
Lemma decr_snoc : forall PL x, decr PL -> (forall p, In p PL -> x < p) -> decr (PL ++ [x]).
Proof.
  intros PL x HI HX i j p q Hij Hi Hj.
  apply nth_snoc in Hi as [[Li Hi]|[-> ->]]; apply nth_snoc in Hj as [[Lj Hj]|[-> ->]]; try lia.
  - exact (HI _ _ _ _ Hij Hi Hj).
  - apply HX. eapply nth_error_In; eauto.
Qed.
Lemma incr_nil : incr []. Proof. intros [|?] j p q ? H; discriminate H. Qed.
Lemma decr_nil : decr []. Proof. intros [|?] j p q ? H; discriminate H. Qed.

Lemma incr_skipn : forall n PL, incr PL -> incr (skipn n PL).
Proof. intros n PL H i j p q Hij Hi Hj. rewrite nth_skipn in *. eapply H with (i := n + i) (j := n + j); eauto. lia. Qed.
Lemma decr_skipn : forall n PL, decr PL -> decr (skipn n PL).
Proof. intros n PL H i j p q Hij Hi Hj. rewrite nth_skipn in *. eapply H with (i := n + i) (j := n + j); eauto. lia. Qed.

Lemma incr_inj : forall PL, incr PL -> forall i j q, nth_error PL i = Some q -> nth_error PL j = Some q -> i = j.
Proof.
  intros PL H i j q Hi Hj. destruct (Nat.lt_trichotomy i j) as [L|[L|L]]; auto.
  - pose proof (H _ _ _ _ L Hi Hj). lia.
  - pose proof (H _ _ _ _ L Hj Hi). lia.
Qed.
Lemma decr_inj : forall PL, decr PL -> forall i j q, nth_error PL i = Some q -> nth_error PL j = Some q -> i = j.
Proof.
  intros PL H i j q Hi Hj. destruct (Nat.lt_trichotomy i j) as [L|[L|L]]; auto.
  - pose proof (H _ _ _ _ L Hi Hj). lia.
  - pose proof (H _ _ _ _ L Hj Hi). lia.
Qed.

Lemma slots_nil : forall f offs start, slots f offs start [].
Proof. intros f offs start [|k] q H; discriminate H. Qed.

Lemma slots_skipn : forall f offs start n PL, slots f offs start PL -> slots f offs (start + n) (skipn n PL).
Proof.
  intros f offs start n PL H k q Hk. rewrite nth_skipn in Hk. destruct (H _ _ Hk) as (o & Ho & E).
  exists o. rewrite <- Nat.add_assoc. auto.
Qed.

(** Writing the offset after the last slot, and keeping it or not. *)
Lemma slots_upd : forall f offs PL o, slots f offs 0 PL -> slots f (upd (length PL) (Some o) offs) 0 PL.
Proof.
  intros f offs PL o H k q Hk. destruct (H _ _ Hk) as (o' & Ho & E).
  exists o'. split; auto. rewrite nth_upd_ne; auto. apply nth_lt in Hk. simpl. lia.
Qed.
Lemma slots_push : forall f offs PL o, slots f offs 0 PL -> length PL < length offs ->
  slots f (upd (length PL) (Some o) offs) 0 (PL ++ [f o]).
Proof.
  intros f offs PL o H HL k q Hk. apply nth_snoc in Hk as [[Lk Hk]|[-> ->]].
  - apply slots_upd; auto.
  - exists o. simpl. rewrite nth_upd_eq; auto.
Qed.

Lemma In_skipn_or : forall n (l : list nat) x, In x l -> In x (firstn n l) \/ In x (skipn n l).
Proof. intros n l x H. rewrite <- (firstn_skipn n l) in H. now apply in_app_or. Qed.
Lemma In_skipn_In : forall n (l : list nat) x, In x (skipn n l) -> In x l.
Proof. intros n l x H. rewrite <- (firstn_skipn n l). apply in_or_app. auto. Qed.

Section Blocks.
Context {A T : Type} (comp : T -> T -> bool) (proj : A -> T).
Notation lt := (by_proj comp proj).
Variable pivot : A.
Notation L b := (holds (fun x => lt x pivot = b)).
Implicit Types m W : mem A.

Lemma fill_left_wp : forall left_split first offs W,
  full first (first + left_split) W -> length offs = block_size ->
  wp (fill_left comp proj pivot left_split first 0 offs)
    (fun '(first', num, offs') m' => m' = W /\ exists PL,
      first' = first + (if block_size <=? left_split then block_size else left_split) /\
      length PL = num /\ length offs' = block_size /\
      slots (fun o => first + o) offs' 0 PL /\ incr PL /\
      (forall q, In q PL -> first <= q < first' /\ L false W q) /\
      (forall j, first <= j < first' -> ~ In j PL -> L true W j)) W.
Proof.
  intros split first offs W Hf HL. unfold fill_left.
  set (bound := if block_size <=? split then block_size else split).
  assert (bound <= block_size /\ bound <= split) as [Hb1 Hb2].
  { unfold bound. destruct (Nat.leb_spec block_size split); lia. }
  apply wp_loop' with (I := fun '(i, first', num, offs') m' => m' = W /\ exists PL,
      i <= bound /\ first' = first + i /\ length PL = num /\ num <= i /\ length offs' = block_size /\
      slots (fun o => first + o) offs' 0 PL /\ incr PL /\
      (forall q, In q PL -> first <= q < first' /\ L false W q) /\
      (forall j, first <= j < first' -> ~ In j PL -> L true W j))
    (mu := fun '(i, _, _, _) => bound - i).
  - split; auto. exists []. cj; auto using slots_nil, incr_nil; try lia; try (intros q []); intros; lia.
  - lia.
  - intros [[[i first'] num] offs'] m' (-> & PL & Hi & -> & HPL & Hn & HL' & HS & HI & H1 & H2).
    destruct (Nat.ltb_spec i bound).
    + apply wp_bind. apply wp_wr; [lia|]. apply wp_bind. rdv Hf (first + i) x Hx. eapply wp_get; eauto.
      apply wp_ret. split; [|lia]. split; auto.
      rewrite <- HPL. change (comp (proj x) (proj pivot)) with (lt x pivot).
      destruct (lt x pivot) eqn:E; simpl negb; cbv iota.
      * exists PL. rewrite Nat.add_0_r. cj; auto; try lia.
        -- now rewrite upd_length.
        -- now apply slots_upd.
        -- intros q Hq. destruct (H1 q Hq). split; auto. lia.
        -- intros j Hj Hni. destruct (Nat.eq_dec j (first + i)) as [->|].
           { exists x; auto. } apply H2; auto. lia.
      * exists (PL ++ [first + i]). cj; auto; try lia.
        -- rewrite app_length. simpl. lia.
        -- now rewrite upd_length.
        -- apply (slots_push (fun o => first + o)); auto. lia.
        -- apply incr_snoc; auto. intros q Hq. apply H1 in Hq. lia.
        -- intros q Hq. apply in_app_or in Hq as [Hq|[<-|[]]].
           ++ destruct (H1 q Hq). split; auto. lia.
           ++ split; [lia|]. exists x; auto.
        -- intros j Hj Hni. apply H2.
           ++ destruct (Nat.eq_dec j (first + i)) as [->|]; [|lia]. exfalso. apply Hni, in_or_app. simpl. auto.
           ++ intros Hin. apply Hni, in_or_app. auto.
    + apply wp_ret. split; auto. exists PL. assert (i = bound) as -> by lia. cj; auto.
Qed.

Lemma fill_right_wp : forall right_split last offs W,
  right_split <= last ->
  full (last - right_split) last W -> length offs = block_size ->
  wp (fill_right comp proj pivot right_split last 0 offs)
    (fun '(last', num, offs') m' => m' = W /\ exists PL,
      last' = last - (if block_size <=? right_split then block_size else right_split) /\
      length PL = num /\ length offs' = block_size /\
      slots (fun o => last - o) offs' 0 PL /\ decr PL /\
      (forall q, In q PL -> last' <= q < last /\ L true W q) /\
      (forall j, last' <= j < last -> ~ In j PL -> L false W j)) W.
Proof.
  intros split last offs W Hle Hf HL. unfold fill_right.
  set (bound := if block_size <=? split then block_size else split).
  assert (bound <= block_size /\ bound <= split) as [Hb1 Hb2].
  { unfold bound. destruct (Nat.leb_spec block_size split); lia. }
  apply wp_loop' with (I := fun '(i, last', num, offs') m' => m' = W /\ exists PL,
      i <= bound /\ last' = last - i /\ length PL = num /\ num <= i /\ length offs' = block_size /\
      slots (fun o => last - o) offs' 0 PL /\ decr PL /\
      (forall q, In q PL -> last' <= q < last /\ L true W q) /\
      (forall j, last' <= j < last -> ~ In j PL -> L false W j))
    (mu := fun '(i, _, _, _) => bound - i).
  - split; auto. exists []. cj; auto using slots_nil, decr_nil; try lia; try (intros q []); intros; lia.
  - lia.
  - intros [[[i last'] num] offs'] m' (-> & PL & Hi & -> & HPL & Hn & HL' & HS & HI & H1 & H2).
    destruct (Nat.ltb_spec i bound).
    + apply wp_bind. apply wp_wr; [lia|]. destruct (Nat.eqb_spec (last - i) 0); [lia|].
      apply wp_bind. rdv Hf (last - i - 1) x Hx. eapply wp_get; eauto.
      apply wp_ret. split; [|lia]. split; auto.
      rewrite <- HPL. change (comp (proj x) (proj pivot)) with (lt x pivot).
      destruct (lt x pivot) eqn:E.
      * exists (PL ++ [last - S i]). cj; auto; try lia.
        -- rewrite app_length. simpl. lia.
        -- now rewrite upd_length.
        -- apply (slots_push (fun o => last - o)); auto. lia.
        -- apply decr_snoc; auto. intros q Hq. apply H1 in Hq. lia.
        -- intros q Hq. apply in_app_or in Hq as [Hq|[<-|[]]].
           ++ destruct (H1 q Hq). split; auto. lia.
           ++ split; [lia|]. exists x. split; auto. rewrite <- Hx. f_equal. lia.
        -- intros j Hj Hni. apply H2.
           ++ destruct (Nat.eq_dec j (last - S i)) as [->|]; [|lia]. exfalso. apply Hni, in_or_app. simpl. auto.
           ++ intros Hin. apply Hni, in_or_app. auto.
      * exists PL. rewrite Nat.add_0_r. cj; auto; try lia.
        -- now rewrite upd_length.
        -- now apply slots_upd.
        -- intros q Hq. destruct (H1 q Hq). split; auto. lia.
        -- intros j Hj Hni. destruct (Nat.eq_dec j (last - i - 1)) as [->|].
           { exists x; auto. } apply H2; auto. lia.
    + apply wp_ret. split; auto. exists PL. assert (i = bound) as -> by lia. cj; auto.
Qed.

Lemma fill_left_zero : forall first num offs W (Q : nat * nat * list (option nat) -> mem A -> Prop),
  Q (first, num, offs) W -> wp (fill_left comp proj pivot 0 first num offs) Q W.
Proof. intros. unfold fill_left. simpl. exact H. Qed.
Lemma fill_right_zero : forall last num offs W (Q : nat * nat * list (option nat) -> mem A -> Prop),
  Q (last, num, offs) W -> wp (fill_right comp proj pivot 0 last num offs) Q W.
Proof. intros. unfold fill_right. simpl. exact H. Qed.

(** Positions [PL] before [first] are on the wrong side, as are the positions [PR] from [last]. *)
Definition sides (b e first last : nat) (PL PR : list nat) W : Prop :=
  b < first /\ first <= last /\ last <= e /\
  incr PL /\ decr PR /\
  (forall q, In q PL -> b < q < first /\ L false W q) /\
  (forall q, In q PR -> last <= q < e /\ L true W q) /\
  (forall j, b < j < first -> ~ In j PL -> L true W j) /\
  (forall j, last <= j < e -> ~ In j PR -> L false W j).

Lemma sides_distinct : forall b e first last PL PR W, sides b e first last PL PR W -> distinct PL PR.
Proof.
  intros b e first last PL PR W (? & ? & ? & HI & HD & H1 & H2 & _).
  split; [apply incr_inj; auto|]. split; [apply decr_inj; auto|].
  intros q Hq Hq'. apply H1 in Hq. apply H2 in Hq'. lia.
Qed.

Lemma sides_exchanged : forall b e first last PL PR W W' num, sides b e first last PL PR W ->
  exchanged (fun x => lt x pivot = false) (fun x => lt x pivot = true) (S b) e num PL PR W W' ->
  sides b e first last (skipn num PL) (skipn num PR) W'.
Proof.
  intros b e first last PL PR W W' num HS (HP & E1 & E2 & E3).
  pose proof (sides_distinct _ _ _ _ _ _ _ HS) as (D1 & D2 & D3).
  destruct HS as (Hb & Hfl & Hle & HI & HD & H1 & H2 & H3 & H4).
  unfold sides. cj; auto using incr_skipn, decr_skipn.
  - intros q Hq. split; [apply H1; eapply In_skipn_In; eauto|].
    apply In_nth_error in Hq as (k & Hk). rewrite nth_skipn in Hk. specialize (E1 _ _ Hk).
    destruct (Nat.ltb_spec (num + k) num); [lia|auto].
  - intros q Hq. split; [apply H2; eapply In_skipn_In; eauto|].
    apply In_nth_error in Hq as (k & Hk). rewrite nth_skipn in Hk. specialize (E2 _ _ Hk).
    destruct (Nat.ltb_spec (num + k) num); [lia|auto].
  - intros j Hj Hni. destruct (in_dec Nat.eq_dec j PL) as [Hin|Hin].
    + apply In_nth_error in Hin as (k & Hk). pose proof (E1 _ _ Hk) as E.
      destruct (Nat.ltb_spec k num); auto. exfalso. apply Hni.
      apply nth_error_In with (k - num). rewrite nth_skipn. rewrite <- Hk. f_equal. lia.
    + eapply holds_ext; [apply E3; auto|].
      { intros Hin'. apply H2 in Hin'. lia. } auto.
  - intros j Hj Hni. destruct (in_dec Nat.eq_dec j PR) as [Hin|Hin].
    + apply In_nth_error in Hin as (k & Hk). pose proof (E2 _ _ Hk) as E.
      destruct (Nat.ltb_spec k num); auto. exfalso. apply Hni.
      apply nth_error_In with (k - num). rewrite nth_skipn. rewrite <- Hk. f_equal. lia.
    + eapply holds_ext; [apply E3; auto|].
      { intros Hin'. apply H1 in Hin'. lia. } auto.
Qed.

Definition blocks_inv (b e : nat) (s : blocks) W : Prop := exists PL PR,
  sides b e (b_first s) (b_last s) PL PR W /\
  length PL = b_num_l s /\ length PR = b_num_r s /\
  length (b_offsets_l s) = block_size /\ length (b_offsets_r s) = block_size /\
  slots (fun o => b_base_l s + o) (b_offsets_l s) (b_start_l s) PL /\
  slots (fun o => b_base_r s - o) (b_offsets_r s) (b_start_r s) PR /\
  (b_num_l s = 0 -> b_base_l s = b_first s /\ b_start_l s = 0) /\
  (b_num_r s = 0 -> b_base_r s = b_last s /\ b_start_r s = 0) /\
  (b_num_l s = 0 \/ b_num_r s = 0).

Lemma zero_nil : forall X (l : list X), length l = 0 -> l = [].
Proof. intros X [|]; simpl; intros; auto; discriminate. Qed.

Lemma block_step_wp : forall b e s W, full (S b) e W -> blocks_inv b e s W -> b_first s < b_last s ->
  wp (block_step comp proj pivot s) (fun s' W' => pm (S b) e W W' /\ blocks_inv b e s' W' /\
    b_first s <= b_first s' /\ b_last s' <= b_last s /\ b_last s' - b_first s' < b_last s - b_first s) W.
Proof.
  intros b e [first last bl br nl nr sl sr ol or] W Hf (PL & PR & HS & HnL & HnR & HoL & HoR & SL & SR & Z1 & Z2 & Z) Hlt.
  cbn [b_first b_last b_base_l b_base_r b_num_l b_num_r b_start_l b_start_r b_offsets_l b_offsets_r] in *.
  unfold block_step.
  cbn [b_first b_last b_base_l b_base_r b_num_l b_num_r b_start_l b_start_r b_offsets_l b_offsets_r].
  set (ls := if nl =? 0 then _ else 0). set (rs := if nr =? 0 then _ else 0).
  assert (ls + rs <= last - first) as Hls.
  { subst ls rs. pose proof (Nat.div_le_upper_bound (last - first) 2 (last - first)).
    destruct (Nat.eqb_spec nl 0), (Nat.eqb_spec nr 0); lia. }
  assert (0 < ls \/ 0 < rs) as Hpos.
  { subst ls rs. pose proof (Nat.div_lt (last - first) 2).
    destruct (Nat.eqb_spec nl 0), (Nat.eqb_spec nr 0); lia. }
  assert (0 < ls -> nl = 0) as Hl0. { subst ls. destruct (Nat.eqb_spec nl 0); lia. }
  assert (0 < rs -> nr = 0) as Hr0. { subst rs. destruct (Nat.eqb_spec nr 0); lia. }
  clearbody ls rs.
  pose proof HS as (Hb & Hfl & Hle & HI & HD & H1 & H2 & H3 & H4).
  (* fill the left block *)
  assert (forall (Q : nat * nat * list (option nat) -> mem A -> Prop),
    (forall first' PL' ol', (ls = 0 -> first' = first) -> (0 < ls -> first < first') -> first' <= first + ls ->
       length ol' = block_size -> slots (fun o => bl + o) ol' sl PL' -> incr PL' ->
       (forall q, In q PL' -> b < q < first' /\ L false W q) ->
       (forall j, b < j < first' -> ~ In j PL' -> L true W j) ->
       Q (first', length PL', ol') W) ->
    wp (fill_left comp proj pivot ls first nl ol) Q W) as HFL.
  { intros Q HQ. destruct (Nat.eq_dec ls 0) as [E|E].
    - rewrite E in *. apply fill_left_zero. rewrite <- HnL. apply HQ; auto; lia.
    - rewrite Hl0 by lia. destruct Z1 as [-> ->]; [apply Hl0; lia|].
      assert (PL = []) as -> by (apply zero_nil; rewrite HnL; apply Hl0; lia).
      eapply wp_mono; [apply fill_left_wp; auto; eapply full_sub; eauto; lia|].
      intros [[first' num] offs'] m' (-> & PL' & Ef & En & Eo & S' & I' & G1 & G2).
      assert (first < first' <= first + ls) as Hf'.
      { rewrite Ef. destruct (Nat.leb_spec block_size ls); unfold block_size in *; lia. }
      rewrite <- En. apply HQ; auto; try lia.
      + intros q Hq. destruct (G1 q Hq). split; auto. lia.
      + intros j Hj Hni. destruct (Nat.lt_ge_cases j first).
        * apply H3; auto. lia.
        * apply G2; auto. lia. }
  apply wp_bind, HFL. intros first' PL' ol' F0 F1 F2 HoL' SL' HI' G1 G2. cbv beta iota.
  (* fill the right block *)
  assert (forall (Q : nat * nat * list (option nat) -> mem A -> Prop),
    (forall last' PR' or', (rs = 0 -> last' = last) -> (0 < rs -> last' < last) -> last - rs <= last' ->
       length or' = block_size -> slots (fun o => br - o) or' sr PR' -> decr PR' ->
       (forall q, In q PR' -> last' <= q < e /\ L true W q) ->
       (forall j, last' <= j < e -> ~ In j PR' -> L false W j) ->
       Q (last', length PR', or') W) ->
    wp (fill_right comp proj pivot rs last nr or) Q W) as HFR.
  { intros Q HQ. destruct (Nat.eq_dec rs 0) as [E|E].
    - rewrite E in *. apply fill_right_zero. rewrite <- HnR. apply HQ; auto; lia.
    - rewrite Hr0 by lia. destruct Z2 as [-> ->]; [apply Hr0; lia|].
      assert (PR = []) as -> by (apply zero_nil; rewrite HnR; apply Hr0; lia).
      eapply wp_mono; [apply fill_right_wp; auto; [lia|]; eapply full_sub; eauto; lia|].
      intros [[last' num] offs'] m' (-> & PR' & Ef & En & Eo & S' & I' & K1 & K2).
      assert (last' < last /\ last - rs <= last') as Hf'.
      { rewrite Ef. destruct (Nat.leb_spec block_size rs); unfold block_size in *; lia. }
      rewrite <- En. apply HQ; auto; try lia.
      + intros q Hq. destruct (K1 q Hq). split; auto. lia.
      + intros j Hj Hni. destruct (Nat.lt_ge_cases j last).
        * apply K2; auto. lia.
        * apply H4; auto. lia. }
  apply wp_bind, HFR. intros last' PR' or' R0 R1 R2 HoR' SR' HD' K1 K2. cbv beta iota.
  assert (sides b e first' last' PL' PR' W) as HS'.
  { unfold sides. destruct (Nat.eq_dec ls 0), (Nat.eq_dec rs 0); rewrite ?F0, ?R0 in * by auto; cj; auto; lia. }
  pose proof HS' as (Hb' & Hfl' & Hle' & _).
  set (num := Nat.min (length PL') (length PR')).
  apply wp_bind. eapply wp_mono.
  { apply (swap_offsets_wp (fun x => lt x pivot = false) (fun x => lt x pivot = true)
      (S b) e bl br ol' or' sl sr num _ PL' PR' W); auto.
    - eapply sides_distinct; eauto.
    - subst num; lia.
    - subst num; lia.
    - intros q Hq. destruct (G1 q Hq). split; auto. lia.
    - intros q Hq. destruct (K1 q Hq). split; auto. lia. }
  intros u W' HE. apply wp_ret.
  pose proof (sides_exchanged _ _ _ _ _ _ _ _ _ HS' HE) as HS2.
  split; [apply HE|]. split.
  2:{ simpl. destruct (Nat.eq_dec ls 0), (Nat.eq_dec rs 0); try lia;
      rewrite ?F0, ?R0 in * by auto; lia. }
  exists (skipn num PL'), (skipn num PR'). unfold blocks_inv.
  cbn [b_first b_last b_base_l b_base_r b_num_l b_num_r b_start_l b_start_r b_offsets_l b_offsets_r].
  assert (length (skipn num PL') = length PL' - num) as EL by apply skipn_length.
  assert (length (skipn num PR') = length PR' - num) as ER by apply skipn_length.
  cj; auto.
  - destruct (Nat.eqb_spec (length PL' - num) 0) as [E|E].
    + rewrite (zero_nil _ (skipn num PL')) by lia. apply slots_nil.
    + apply slots_skipn; auto.
  - destruct (Nat.eqb_spec (length PR' - num) 0) as [E|E].
    + rewrite (zero_nil _ (skipn num PR')) by lia. apply slots_nil.
    + apply slots_skipn; auto.
  - intros ->. auto.
  - intros ->. auto.
  - subst num. lia.
Qed.

Lemma block_partition_wp : forall b e first last W, full (S b) e W -> b < first -> first <= last -> last <= e ->
  (forall j, b < j < first -> L true W j) -> (forall j, last <= j < e -> L false W j) ->
  wp (block_partition comp proj pivot first last) (fun r W' => pm (S b) e W W' /\ b < r <= e /\
    (forall j, b < j < r -> L true W' j) /\ (forall j, r <= j < e -> L false W' j)) W.
Proof.
  intros b e first last W Hf Hb Hfl Hle HL HR. unfold block_partition.
  apply wp_bind.
  apply wp_loop' with (I := fun s W' => pm (S b) e W W' /\ blocks_inv b e s W' /\ first <= b_first s /\ b_last s <= last)
    (mu := fun s => b_last s - b_first s).
  { split; [apply pm_refl|]. simpl. cj; auto. exists [], []. simpl. unfold sides.
    cj; auto using incr_nil, decr_nil, slots_nil; intros q []. }
  { simpl. lia. }
  { intros s W1 (HP & HI & B1 & B2). destruct (Nat.ltb_spec (b_first s) (b_last s)) as [Hlt|Hge].
    - apply wp_bind. eapply wp_mono; [apply block_step_wp; eauto; eapply pm_full; eauto|].
      intros s' W2 (HP2 & HI2 & C1 & C2 & C3). apply wp_ret. split; [|lia].
      cj; auto; try lia. eapply pm_trans; eauto.
    - apply wp_ret. destruct HI as (PL & PR & HS & HnL & HnR & HoL & HoR & SL & SR & Z1 & Z2 & Z).
      destruct s as [fi la bl br nl nr sl sr ol or].
      cbn [b_first b_last b_base_l b_base_r b_num_l b_num_r b_start_l b_start_r b_offsets_l b_offsets_r] in *.
      pose proof HS as (Hb' & Hfl' & Hle' & HI & HD & H1 & H2 & H3 & H4).
      assert (la = fi) as -> by lia.
      assert (full (S b) e W1) as Hf1 by (eapply pm_full; eauto).
      apply wp_bind.
      destruct (Nat.eqb_spec nl 0) as [El|El].
      + apply wp_ret. cbv beta iota. assert (PL = []) as -> by (apply zero_nil; lia).
        destruct (Nat.eqb_spec nr 0) as [Er|Er].
        * assert (PR = []) as -> by (apply zero_nil; lia). apply wp_ret. cj; auto; lia.
        * apply wp_loop' with (I := fun '(n, r) W2 => pm (S b) e W W2 /\ fi <= r <= e /\ n <= nr /\
              (forall j, b < j < r -> L true W2 j) /\
              (forall q, In q (firstn n PR) -> r <= q < e /\ L true W2 q) /\
              (forall j, r <= j < e -> ~ In j (firstn n PR) -> L false W2 j)) (mu := fun '(n, _) => n).
          -- rewrite <- HnR, firstn_all. cj; auto; try lia.
          -- lia.
          -- intros [n r] W2 (HP2 & Hr & Hn & J1 & J2 & J3). destruct n as [|n].
             { apply wp_ret. cj; auto; try lia. }
             destruct (nth_some _ PR n) as (q & Hq); [lia|].
             assert (In q (firstn (S n) PR)) as Hin.
             { apply nth_error_In with n. rewrite nth_firstn_lt; auto. }
             destruct (J2 q Hin) as [Bq Lq].
             apply wp_bind. eapply wp_rd_init; eauto. intros o Eo. simpl in Eo. rewrite Eo.
             apply wp_bind. eapply wp_swap_pm with (f := S b) (l := e); try lia. { eapply pm_full; eauto. }
             intros W3 HP3 HS3. apply wp_ret. split; [|lia].
             assert (forall q', In q' (firstn n PR) -> q < q' /\ In q' (firstn (S n) PR)) as Hrest.
             { intros q' Hq'. apply In_nth_error in Hq' as (k & Hk).
               assert (k < n). { apply nth_lt in Hk. rewrite firstn_length in Hk. lia. }
               rewrite nth_firstn_lt in Hk by auto. split; [exact (HD _ _ _ _ H Hk Hq)|].
               apply nth_error_In with k. rewrite nth_firstn_lt; auto. }
             cj; try lia.
             ++ eapply pm_trans; eauto.
             ++ intros j Hj. destruct (Nat.eq_dec j r) as [->|].
                ** eapply holds_ext; [rewrite HS3, tr_r; reflexivity|]. auto.
                ** eapply holds_ext; [rewrite HS3, tr_o by lia; reflexivity|]. apply J1. lia.
             ++ intros q' Hq'. destruct (Hrest q' Hq') as [B' I']. destruct (J2 q' I'). split; [lia|].
                eapply holds_ext; [rewrite HS3, tr_o by lia; reflexivity|]. auto.
             ++ intros j Hj Hni. destruct (Nat.eq_dec j q) as [->|].
                ** eapply holds_ext; [rewrite HS3, tr_l; reflexivity|].
                   apply J3; [lia|]. intros Hr'.
                   apply In_nth_error in Hr' as (k & Hk).
                   assert (k < S n). { apply nth_lt in Hk. rewrite firstn_length in Hk. lia. }
                   rewrite nth_firstn_lt in Hk by auto.
                   destruct (Nat.eq_dec k n) as [->|]; [assert (r = q) by congruence; lia|].
                   assert (k < n) as Hkn by lia. pose proof (HD _ _ _ _ Hkn Hk Hq). lia.
                ** eapply holds_ext; [rewrite HS3, tr_o by lia; reflexivity|].
                   apply J3; [lia|]. intros Hj'.
                   apply In_nth_error in Hj' as (k & Hk).
                   assert (k < S n). { apply nth_lt in Hk. rewrite firstn_length in Hk. lia. }
                   rewrite nth_firstn_lt in Hk by auto.
                   destruct (Nat.eq_dec k n) as [->|]; [congruence|].
                   apply Hni. apply nth_error_In with k. rewrite nth_firstn_lt; auto. lia.
      + assert (nr = 0) as Er by lia. assert (PR = []) as -> by (apply zero_nil; lia).
        rewrite Er, Nat.eqb_refl.
        apply wp_bind.
        apply wp_loop' with (I := fun '(n, r) W2 => pm (S b) e W W2 /\ b < r <= fi /\ n <= nl /\
              (forall j, r <= j < e -> L false W2 j) /\
              (forall q, In q (firstn n PL) -> b < q < r /\ L false W2 q) /\
              (forall j, b < j < r -> ~ In j (firstn n PL) -> L true W2 j)) (mu := fun '(n, _) => n).
          -- rewrite <- HnL, firstn_all. cj; auto; try lia.
          -- lia.
          -- intros [n r] W2 (HP2 & Hr & Hn & J1 & J2 & J3). destruct n as [|n].
             { do 2 apply wp_ret. cbv beta iota. apply wp_ret. cj; auto; try lia. }
             destruct (nth_some _ PL n) as (q & Hq); [lia|].
             assert (In q (firstn (S n) PL)) as Hin.
             { apply nth_error_In with n. rewrite nth_firstn_lt; auto. }
             destruct (J2 q Hin) as [Bq Lq].
             apply wp_bind. eapply wp_rd_init; eauto. intros o Eo. simpl in Eo. rewrite Eo.
             destruct (Nat.eqb_spec r 0); [lia|].
             apply wp_bind. eapply wp_swap_pm with (f := S b) (l := e); try lia. { eapply pm_full; eauto. }
             intros W3 HP3 HS3. apply wp_ret. split; [|lia].
             assert (forall q', In q' (firstn n PL) -> q' < q /\ In q' (firstn (S n) PL)) as Hrest.
             { intros q' Hq'. apply In_nth_error in Hq' as (k & Hk).
               assert (k < n). { apply nth_lt in Hk. rewrite firstn_length in Hk. lia. }
               rewrite nth_firstn_lt in Hk by auto. split; [exact (HI _ _ _ _ H Hk Hq)|].
               apply nth_error_In with k. rewrite nth_firstn_lt; auto. }
             cj; try lia.
             ++ eapply pm_trans; eauto.
             ++ intros j Hj. destruct (Nat.eq_dec j (r - 1)) as [->|].
                ** eapply holds_ext; [rewrite HS3, tr_r; reflexivity|]. auto.
                ** eapply holds_ext; [rewrite HS3, tr_o by lia; reflexivity|]. apply J1. lia.
             ++ intros q' Hq'. destruct (Hrest q' Hq') as [B' I']. destruct (J2 q' I'). split; [lia|].
                eapply holds_ext; [rewrite HS3, tr_o by lia; reflexivity|]. auto.
             ++ intros j Hj Hni. destruct (Nat.eq_dec j q) as [->|].
                ** eapply holds_ext; [rewrite HS3, tr_l; reflexivity|].
                   apply J3; [lia|]. intros Hr'.
                   apply In_nth_error in Hr' as (k & Hk).
                   assert (k < S n). { apply nth_lt in Hk. rewrite firstn_length in Hk. lia. }
                   rewrite nth_firstn_lt in Hk by auto.
                   destruct (Nat.eq_dec k n) as [->|]; [assert (r - 1 = q) by congruence; lia|].
                   assert (k < n) as Hkn by lia. pose proof (HI _ _ _ _ Hkn Hk Hq). lia.
                ** eapply holds_ext; [rewrite HS3, tr_o by lia; reflexivity|].
                   apply J3; [lia|]. intros Hj'.
                   apply In_nth_error in Hj' as (k & Hk).
                   assert (k < S n). { apply nth_lt in Hk. rewrite firstn_length in Hk. lia. }
                   rewrite nth_firstn_lt in Hk by auto.
                   destruct (Nat.eq_dec k n) as [->|]; [congruence|].
                   apply Hni. apply nth_error_In with k. rewrite nth_firstn_lt; auto. lia. }
Qed.
End Blocks.
