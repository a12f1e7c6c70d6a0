(** Proofs about cycle-following moves and indirect sorting. *)
From Coq Require Import List Arith Lia Permutation Bool.
From Verif Require Import Spec.Order Lang.Mem Spec.Sorts Proofs.Wp Proofs.OrderLib Model.Indirect.
Import ListNotations.

(** * Lists presented by a function *)
Lemma nth_map_seq : forall X (F : nat -> X) n j, j < n -> nth_error (map F (seq 0 n)) j = Some (F j).
Proof.
  intros. erewrite map_nth_error; [reflexivity|].
  rewrite (nth_error_nth' _ 0) by (rewrite seq_length; lia). now rewrite seq_nth by lia.
Qed.
Lemma map_seq_ext : forall X (F G : nat -> X) n, (forall j, j < n -> F j = G j) ->
  map F (seq 0 n) = map G (seq 0 n).
Proof. intros. apply map_ext_in. intros j Hj. apply in_seq in Hj. apply H. lia. Qed.
Lemma upd_map_seq : forall X (F : nat -> X) n j x, j < n ->
  upd j x (map F (seq 0 n)) = map (fun i => if i =? j then x else F i) (seq 0 n).
Proof.
  intros. apply nth_ext. intros i. rewrite nth_upd, map_length, seq_length.
  destruct (Nat.eqb_spec j i) as [->|Hne].
  - rewrite nth_map_seq by lia. rewrite Nat.eqb_refl. destruct (Nat.ltb_spec i n); [auto|lia].
  - destruct (Nat.ltb_spec i n).
    + rewrite !nth_map_seq by lia. destruct (Nat.eqb_spec i j); [lia|auto].
    + rewrite !(proj2 (nth_error_None _ _)); auto; rewrite map_length, seq_length; lia.
Qed.
Lemma list_map_seq : forall X (l : list X) d, l = map (fun j => nth j l d) (seq 0 (length l)).
Proof.
  intros. apply nth_ext. intros i. destruct (Nat.ltb_spec i (length l)).
  - rewrite nth_map_seq by lia. now apply nth_error_nth'.
  - rewrite !(proj2 (nth_error_None _ _)); auto. rewrite map_length, seq_length. lia.
Qed.

Lemma repeat_map_seq : forall X (x : X) n, repeat x n = map (fun _ => x) (seq 0 n).
Proof. intros. generalize 0. induction n; intros k; simpl; auto. f_equal. apply IHn. Qed.

(** * Counting *)
Definition fin (D : nat -> bool) (j : nat) : nat -> bool := fun i => if i =? j then true else D i.
Definition cnt (D : nat -> bool) (n : nat) : nat := length (filter D (seq 0 n)).

Lemma cnt_le : forall D n, cnt D n <= n.
Proof. intros. unfold cnt. rewrite <- (seq_length n 0) at 2. apply filter_length_le. Qed.
Lemma cnt_fin : forall D n j, j < n -> D j = false -> cnt (fin D j) n = S (cnt D n).
Proof.
  intros D n j Hj HD. unfold cnt.
  assert (Permutation (filter (fin D j) (seq 0 n)) (j :: filter D (seq 0 n))) as HP.
  { apply NoDup_Permutation.
    - apply NoDup_filter, seq_NoDup.
    - constructor. { rewrite filter_In. intros [_ ?]. congruence. }
      apply NoDup_filter, seq_NoDup.
    - intros x. simpl. rewrite !filter_In, in_seq. unfold fin.
      destruct (Nat.eqb_spec x j); subst; intuition; lia. }
  apply Permutation_length in HP. exact HP.
Qed.
Lemma cnt_lt : forall D n j, j < n -> D j = false -> cnt D n < n.
Proof. intros. pose proof (cnt_fin D n j H H0). pose proof (cnt_le (fin D j) n). lia. Qed.

(** The common form of [sorts], [sorts_stably] and [permutes]. *)
Definition runs {A : Type} (R : list A -> list A -> Prop) (prog : range_prog A) : Prop :=
  forall pre xs post, exists ys,
    prog (length pre) (length pre + length xs) (pre ++ map Val xs ++ post)
      = Ok tt (pre ++ map Val ys ++ post)
    /\ R xs ys.

(** * Vectors *)
Section Vec.
Context {A : Type}.
Lemma wp_rd : forall X (v : list X) i x (Q : X -> mem A -> Prop) m,
  nth_error v i = Some x -> Q x m -> wp (rd v i) Q m.
Proof. intros. unfold rd. rewrite H. exact H0. Qed.
Lemma wp_wr : forall X (v : list X) i x (Q : list X -> mem A -> Prop) m,
  i < length v -> Q (upd i x v) m -> wp (wr v i x) Q m.
Proof. intros. unfold wr. destruct (Nat.ltb_spec i (length v)); [exact H0|lia]. Qed.
Lemma wp_rd_seq : forall X (F : nat -> X) n i (Q : X -> mem A -> Prop) m,
  i < n -> Q (F i) m -> wp (rd (map F (seq 0 n)) i) Q m.
Proof. intros. eapply wp_rd; eauto. now apply nth_map_seq. Qed.
Lemma wp_wr_seq : forall X (F : nat -> X) n i x (Q : list X -> mem A -> Prop) m,
  i < n -> Q (map (fun j => if j =? i then x else F j) (seq 0 n)) m -> wp (wr (map F (seq 0 n)) i x) Q m.
Proof. intros. apply wp_wr. { now rewrite map_length, seq_length. } now rewrite upd_map_seq. Qed.

Lemma values_map : forall E (v : list E), values (map Val v) = Some v.
Proof. induction v; simpl; auto. now rewrite IHv. Qed.

Lemma wp_sort_vector : forall E (R : list E -> list E -> Prop) sorter v (Q : list E -> mem A -> Prop) m,
  runs R sorter -> (forall v', R v v' -> Q v' m) -> wp (sort_vector sorter v) Q m.
Proof.
  intros E R sorter v Q m HS HQ. destruct (HS [] v []) as (v' & Ev & HO).
  simpl in Ev. rewrite !app_nil_r in Ev. unfold wp, sort_vector. rewrite Ev, values_map. auto.
Qed.
End Vec.

(** * Following the cycles of a permutation *)
Section Walk.
Context {A : Type} (pre post : mem A) (xs : list A) (p : nat -> nat).
Notation n := (length xs).
Notation f := (length pre).
Hypothesis Hp : forall j, j < n -> p j < n.
Hypothesis Hinj : forall i j, i < n -> j < n -> p i = p j -> i = j.

Definition cellv (j : nat) : cell A := nth j (map Val xs) Raw.
Definition fmem (F : nat -> cell A) : mem A := pre ++ map F (seq 0 n) ++ post.

Lemma cellv_val : forall j, j < n -> exists a, cellv j = Val a.
Proof.
  intros. unfold cellv. destruct xs as [|x t] eqn:E; [simpl in *; lia|]. rewrite <- E in *.
  rewrite nth_indep with (d' := Val x) by (rewrite map_length; lia). rewrite map_nth. eauto.
Qed.
Lemma fmem_nth : forall F j, j < n -> nth_error (fmem F) (f + j) = Some (F j).
Proof.
  intros. unfold fmem. rewrite nth_error_app2 by lia.
  replace (f + j - f) with j by lia. rewrite nth_error_app1 by (rewrite map_length, seq_length; lia).
  now apply nth_map_seq.
Qed.
Lemma fmem_upd : forall F j c, j < n ->
  upd (f + j) c (fmem F) = fmem (fun i => if i =? j then c else F i).
Proof.
  intros. unfold fmem. rewrite upd_app_r by lia. f_equal.
  replace (f + j - f) with j by lia. rewrite upd_app_l by (rewrite map_length, seq_length; lia).
  now rewrite upd_map_seq.
Qed.
Lemma fmem_ext : forall F G, (forall j, j < n -> F j = G j) -> fmem F = fmem G.
Proof. intros. unfold fmem. do 2 f_equal. now apply map_seq_ext. Qed.
Lemma fmem_init : pre ++ map Val xs ++ post = fmem cellv.
Proof. unfold fmem. do 2 f_equal. rewrite (list_map_seq _ (map Val xs) Raw) at 1. now rewrite map_length. Qed.

Definition done_cells (D : nat -> bool) (j : nat) : cell A := if D j then cellv (p j) else cellv j.
Definition hole_cells (D : nat -> bool) (c j : nat) : cell A :=
  if j =? c then Moved else done_cells D j.

(** Nothing outside [D] leads into [D]. *)
Definition closed (D : nat -> bool) : Prop :=
  forall x, x < n -> D x = true -> exists y, y < n /\ D y = true /\ p y = x.

Definition walk (D : nat -> bool) (s c : nat) : Prop :=
  s < n /\ c < n /\ D c = false /\ (s = c \/ D s = true) /\
  forall x, x < n -> D x = true \/ x = c -> x <> s -> exists y, y < n /\ D y = true /\ p y = x.

Lemma walk_start : forall D s, s < n -> D s = false -> closed D -> walk D s s.
Proof.
  intros D s Hs HD HC. repeat split; auto. intros x Hx [H|H] Hne; [|congruence]. now apply HC.
Qed.
Lemma walk_next : forall D s c, walk D s c -> p c <> s -> D (p c) = false /\ p c <> c.
Proof.
  intros D s c (Hs & Hc & HD & Hsc & HB) Hne.
  assert (forall x, D x = true \/ x = c -> x = p c -> False) as K.
  { intros x Hx ->. destruct (HB (p c) (Hp c Hc) Hx Hne) as (y & Hy & HDy & Ey).
    apply Hinj in Ey; auto. congruence. }
  split.
  - destruct (D (p c)) eqn:E; auto. exfalso. eauto.
  - intros E. eapply (K c); auto.
Qed.
Lemma walk_step : forall D s c, walk D s c -> p c <> s -> walk (fin D c) s (p c).
Proof.
  intros D s c HW Hne. pose proof (walk_next D s c HW Hne) as [HN HNc].
  destruct HW as (Hs & Hc & HD & Hsc & HB). repeat split; auto.
  - unfold fin. destruct (Nat.eqb_spec (p c) c); [lia|auto].
  - right. unfold fin. destruct (Nat.eqb_spec s c); auto. destruct Hsc; auto; lia.
  - intros x Hx [H|H] Hxs.
    + destruct (HB x Hx) as (y & Hy & HDy & Ey); auto.
      { unfold fin in H. destruct (Nat.eqb_spec x c); auto. }
      exists y. repeat split; auto. unfold fin. destruct (y =? c); auto.
    + exists c. repeat split; auto. unfold fin. now rewrite Nat.eqb_refl.
Qed.
Lemma walk_end : forall D s c, walk D s c -> p c = s -> closed (fin D c).
Proof.
  intros D s c (Hs & Hc & HD & Hsc & HB) E x Hx Hfx.
  destruct (Nat.eq_dec x s) as [->|Hne].
  - exists c. repeat split; auto. unfold fin. now rewrite Nat.eqb_refl.
  - destruct (HB x Hx) as (y & Hy & HDy & Ey); auto.
    { unfold fin in Hfx. destruct (Nat.eqb_spec x c); auto. }
    exists y. repeat split; auto. unfold fin. destruct (y =? c); auto.
Qed.
Lemma closed_fixed : forall D s, s < n -> p s = s -> closed D -> closed (fin D s).
Proof.
  intros D s Hs E HC x Hx H. unfold fin in H. destruct (Nat.eqb_spec x s) as [->|].
  - exists s. repeat split; auto. unfold fin. now rewrite Nat.eqb_refl.
  - destruct (HC x Hx H) as (y & ? & Hy & ?). exists y. repeat split; auto. unfold fin. destruct (y =? s); auto.
Qed.

(** Taking out the first element of a cycle. *)
Lemma wp_take_walk : forall D s (Q : A -> mem A -> Prop), s < n -> D s = false ->
  (forall a, cellv s = Val a -> Q a (fmem (hole_cells D s))) ->
  wp (take (f + s)) Q (fmem (done_cells D)).
Proof.
  intros D s Q Hs HD HQ. destruct (cellv_val s Hs) as [a Ea].
  eapply wp_take. { rewrite fmem_nth by auto. unfold done_cells. rewrite HD, Ea. reflexivity. }
  rewrite fmem_upd by auto. apply HQ. auto.
Qed.
Lemma wp_move_walk : forall D s c (Q : unit -> mem A -> Prop), walk D s c -> p c <> s ->
  Q tt (fmem (hole_cells (fin D c) (p c))) ->
  wp (move_to (f + p c) (f + c)) Q (fmem (hole_cells D c)).
Proof.
  intros D s c Q HW Hne HQ. pose proof (walk_next D s c HW Hne) as [HN HNc].
  destruct HW as (Hs & Hc & HD & Hsc & HB).
  destruct (cellv_val (p c) (Hp c Hc)) as [a Ea].
  eapply wp_move_to with (a := a) (c := Moved); try discriminate; try lia.
  - rewrite fmem_nth by auto. unfold hole_cells, done_cells. rewrite HN, Ea.
    destruct (Nat.eqb_spec (p c) c); [lia|auto].
  - rewrite fmem_nth by auto. unfold hole_cells. now rewrite Nat.eqb_refl.
  - rewrite fmem_upd by auto. rewrite fmem_upd by auto.
    replace (fmem _) with (fmem (hole_cells (fin D c) (p c))); auto.
    apply fmem_ext. intros j Hj. unfold hole_cells, done_cells, fin.
    destruct (Nat.eqb_spec j (p c)) as [->|].
    + destruct (Nat.eqb_spec (p c) c); [lia|]. auto.
    + destruct (Nat.eqb_spec j c) as [->|]; auto.
Qed.
Lemma wp_put_walk : forall D s c a (Q : unit -> mem A -> Prop), walk D s c -> p c = s -> cellv s = Val a ->
  Q tt (fmem (done_cells (fin D c))) -> wp (put (f + c) a) Q (fmem (hole_cells D c)).
Proof.
  intros D s c a Q (Hs & Hc & HD & Hsc & HB) E Ea HQ.
  eapply wp_put with (c := Moved); try discriminate.
  - rewrite fmem_nth by auto. unfold hole_cells. now rewrite Nat.eqb_refl.
  - rewrite fmem_upd by auto.
    replace (fmem _) with (fmem (done_cells (fin D c))); auto.
    apply fmem_ext. intros j Hj. unfold hole_cells, done_cells, fin.
    destruct (Nat.eqb_spec j c) as [->|]; auto. now rewrite E.
Qed.

Lemma done_fixed : forall D s, p s = s -> forall j, done_cells (fin D s) j = done_cells D j.
Proof.
  intros. unfold done_cells, fin. destruct (Nat.eqb_spec j s) as [->|]; auto.
  rewrite H. destruct (D s); auto.
Qed.

(** Every cell is as required at the end. *)
Lemma done_all : forall D, (forall j, j < n -> D j = true \/ p j = j) ->
  fmem (done_cells D) = fmem (fun j => cellv (p j)).
Proof.
  intros D H. apply fmem_ext. intros j Hj. unfold done_cells.
  destruct (H j Hj) as [->| ->]; auto. destruct (D j); auto.
Qed.

(** ** apply_permutation *)
Definition idx_of (D : nat -> bool) (j : nat) : nat := if D j then j else p j.

Lemma apply_permutation_wp : forall (Q : list nat -> mem A -> Prop),
  Q (seq 0 n) (fmem (fun j => cellv (p j))) ->
  wp (apply_permutation f (f + n) (map p (seq 0 n))) Q (fmem cellv).
Proof.
  intros Q HQ. unfold apply_permutation. rewrite map_length, seq_length. cbv zeta.
  eapply wp_loop' with (mu := fun '(idx, _) => n - idx)
    (I := fun '(idx, indices) m => idx <= n /\ exists D, closed D /\
       (forall j, j < idx -> D j = true \/ p j = j) /\
       indices = map (idx_of D) (seq 0 n) /\ m = fmem (done_cells D)).
  - split; [lia|]. exists (fun _ => false). repeat split.
    + intros x _ H. discriminate.
    + intros; lia.
  - lia.
  - intros [idx indices] m (Hidx & D & HC & HD & -> & ->).
    destruct (Nat.ltb_spec idx n) as [Hlt|Hge]; cbn [negb].
    2:{ apply wp_ret. rewrite done_all by (intros; apply HD; lia).
        replace (map (idx_of D) (seq 0 n)) with (seq 0 n); auto.
        rewrite <- (map_id (seq 0 n)) at 1. apply map_seq_ext. intros j Hj. unfold idx_of.
        destruct (HD j) as [-> | ->]; auto; try lia. destruct (D j); auto. }
    apply wp_bind, wp_rd_seq; auto.
    destruct (Nat.eqb_spec idx (idx_of D idx)) as [E|E].
    { apply wp_ret. split; [|lia]. split; [lia|]. exists D. repeat split; auto.
      intros j Hj. destruct (Nat.eq_dec j idx) as [->|]; [|apply HD; lia].
      unfold idx_of in E. destruct (D idx); auto. }
    assert (D idx = false) as HDi by (unfold idx_of in E; destruct (D idx); congruence).
    assert (p idx <> idx) as Hpi by (unfold idx_of in E; rewrite HDi in E; auto).
    apply wp_bind, wp_take_walk; auto. intros tmp Htmp.
    apply wp_bind.
    eapply wp_mono with (Q := fun '(c, indices) m => exists D', walk D' idx c /\ p c = idx /\
       (forall j, D j = true -> D' j = true) /\ indices = map (idx_of D') (seq 0 n) /\
       (c <> idx -> D' idx = true) /\ m = fmem (hole_cells D' c)).
    + eapply wp_loop_k with (k := n - cnt D n)
       (I := fun k '(c, indices) m => exists D', walk D' idx c /\ p c <> idx /\
         (forall j, D j = true -> D' j = true) /\ indices = map (idx_of D') (seq 0 n) /\
         k = n - cnt D' n /\ m = fmem (hole_cells D' c)).
      * exists D. repeat split; auto. intros x Hx [H|H] Hne; [now apply HC|congruence].
      * lia.
      * intros k [c indices] m (D' & HW & Hne & HDD & -> & -> & ->).
        pose proof HW as (_ & Hc & HDc & _).
        apply wp_bind, wp_rd_seq; auto. unfold idx_of at 1. rewrite HDc.
        pose proof (walk_next D' idx c HW Hne) as [HN HNc].
        apply wp_bind. replace (f + idx_of D' c) with (f + p c) by (unfold idx_of; now rewrite HDc).
        eapply wp_move_walk; eauto.
        apply wp_bind, wp_wr_seq; auto.
        apply wp_bind. replace (idx_of D' c) with (p c) by (unfold idx_of; now rewrite HDc).
        apply wp_rd_seq; auto.
        destruct (Nat.eqb_spec (p c) c) as [?|_]; [lia|].
        replace (idx_of D' (p c)) with (p (p c)) by (unfold idx_of; now rewrite HN).
        assert (map (fun j => if j =? c then c else idx_of D' j) (seq 0 n) = map (idx_of (fin D' c)) (seq 0 n)) as EI.
        { apply map_seq_ext. intros j Hj. unfold idx_of, fin. destruct (Nat.eqb_spec j c); subst; auto. }
        rewrite EI. pose proof (walk_step D' idx c HW Hne) as HW'.
        assert (forall j, D j = true -> fin D' c j = true).
        { intros j Hj. unfold fin. destruct (j =? c); auto. }
        destruct (Nat.eqb_spec idx (p (p c))) as [Ex|Ex]; cbn [negb]; apply wp_ret.
        -- exists (fin D' c). cj; auto. intros _.
           destruct HW' as (_ & _ & _ & [Hs|Hs] & _); [congruence|auto].
        -- exists (n - cnt (fin D' c) n). split.
           { rewrite cnt_fin by auto. pose proof (cnt_lt _ _ _ Hc HDc). lia. }
           exists (fin D' c). cj; auto.
    + intros [c indices] m (D' & HW & Ec & HDD & -> & Hci & ->).
      pose proof HW as (_ & Hc & HDc & _).
      apply wp_bind, wp_wr_seq; auto.
      apply wp_bind. eapply wp_put_walk; eauto.
      apply wp_ret. split; [|lia]. split; [lia|]. exists (fin D' c). cj; auto.
      * eapply walk_end; eauto.
      * intros j Hj. destruct (Nat.eq_dec j idx) as [->|].
        { left. unfold fin. destruct (Nat.eqb_spec idx c); auto. }
        destruct (HD j) as [Hd|Hd]; [lia| |auto]. left. unfold fin. destruct (j =? c); auto.
      * apply map_seq_ext. intros j Hj. unfold idx_of, fin. destruct (Nat.eqb_spec j c); subst; auto.
Qed.

(** ** indirect_adapter, random-access iterators *)
Lemma move_along_wp : forall (Q : nat -> mem A -> Prop),
  (forall moves, 2 * moves <= 3 * n -> Q moves (fmem (fun j => cellv (p j)))) ->
  wp (move_along (map (fun j => f + p j) (seq 0 n)) f (f + n)) Q (fmem cellv).
Proof.
  intros Q HQ. unfold move_along. replace (f + n - f) with n by lia. cbv zeta.
  apply wp_bind.
  eapply wp_loop' with (mu := fun '(start, _, _) => f + n - start)
    (I := fun '(start, sorted, moves) m => exists s D, start = f + s /\ s <= n /\ closed D /\
       (forall j, j < s -> D j = true) /\ (s < n -> D s = false) /\
       sorted = map D (seq 0 n) /\ 2 * moves <= 3 * cnt D n /\ m = fmem (done_cells D)).
  - exists 0, (fun _ => false). cj; auto; try lia.
    + intros x _ H. discriminate.
    + apply repeat_map_seq.
  - lia.
  - intros [[start sorted] moves] m (s & D & -> & Hs & HC & HD & HDs & -> & Hmv & ->).
    destruct (Nat.eqb_spec (f + s) (f + n)) as [E|E].
    { apply wp_ret. apply wp_ret. rewrite done_all. 2:{ intros. left. apply HD. lia. }
      apply HQ. pose proof (cnt_le D n). lia. }
    assert (s < n) as Hlt by lia. specialize (HDs Hlt).
    replace (f + s - f) with s by lia.
    apply wp_bind, wp_rd_seq; auto.
    apply wp_bind, wp_wr_seq; auto.
    apply wp_bind.
    assert (map (fun j => if j =? s then true else D j) (seq 0 n) = map (fin D s) (seq 0 n)) as -> by reflexivity.
    eapply wp_mono with (Q := fun '(sorted, moves) m => exists D', closed D' /\
       (forall j, j <= s -> D' j = true) /\ sorted = map D' (seq 0 n) /\ 2 * moves <= 3 * cnt D' n /\
       m = fmem (done_cells D')).
    { destruct (Nat.eqb_spec (f + p s) (f + s)) as [Ep|Ep]; cbn [negb].
      { assert (p s = s) by lia.
        apply wp_ret. exists (fin D s). cj; auto.
        - now apply closed_fixed.
        - intros j Hj. unfold fin. destruct (Nat.eqb_spec j s); auto. apply HD. lia.
        - rewrite cnt_fin by auto. lia.
        - apply fmem_ext. intros. symmetry. now apply done_fixed. }
      assert (p s <> s) as Hps by lia.
      apply wp_bind, wp_take_walk; auto. intros tmp Htmp.
      apply wp_bind.
      eapply wp_mono with (Q := fun '(current, sorted, moves') m => exists c D', current = f + c /\ walk D' s c /\
         p c = s /\ (forall j, D j = true -> D' j = true) /\
         sorted = map (fin D' c) (seq 0 n) /\ 2 * moves' + 2 <= 3 * (S (cnt D' n)) /\
         m = fmem (hole_cells D' c)).
      - eapply wp_loop_k with (k := n - cnt D n)
         (I := fun k '(current, next, sorted, moves') m => exists c D' i, current = f + c /\ next = f + p c /\ walk D' s c /\
           (forall j, D j = true -> D' j = true) /\
           sorted = map (fin D' c) (seq 0 n) /\ moves' = moves + 1 + i /\ cnt D' n = cnt D n + i /\
           (i = 0 -> c = s) /\ k = n - cnt D' n /\ m = fmem (hole_cells D' c)).
        + exists s, D, 0. cj; auto; try lia. now apply walk_start.
        + lia.
        + intros k [[[current next] sorted] moves'] m (c & D' & i & -> & -> & HW & HDD & -> & -> & Hcnt & Hi & -> & ->).
          pose proof HW as (_ & Hc & HDc & _).
          destruct (Nat.eqb_spec (f + p c) (f + s)) as [Ec|Ec].
          * apply wp_ret. exists c, D'. cj; auto; try lia.
            assert (i <> 0). { intros Hi0. specialize (Hi Hi0). subst c. lia. } lia.
          * assert (p c <> s) as Hne by lia.
            apply wp_bind. eapply wp_move_walk; eauto.
            replace (f + p c - f) with (p c) by lia.
            apply wp_bind, wp_rd_seq; auto. apply wp_bind, wp_wr_seq; auto. apply wp_ret.
            pose proof (cnt_lt _ _ _ Hc HDc).
            exists (n - cnt (fin D' c) n). split. { rewrite cnt_fin by auto. lia. }
            exists (p c), (fin D' c), (S i). rewrite cnt_fin by auto. cj; auto; try lia.
            -- now apply walk_step.
            -- intros j Hj. unfold fin. destruct (j =? c); auto.
      - intros [[current sorted] moves'] m (c & D' & -> & HW & Ec & HDD & -> & Hm & ->).
        pose proof HW as (_ & Hc & HDc & Hsc & _).
        apply wp_bind. eapply wp_put_walk; eauto. apply wp_ret.
        exists (fin D' c). cj; auto.
        + eapply walk_end; eauto.
        + intros j Hj. unfold fin. destruct (Nat.eqb_spec j c); auto.
          destruct (Nat.eq_dec j s) as [->|]. { destruct Hsc; auto; congruence. }
          apply HDD, HD. lia.
        + rewrite cnt_fin by auto. lia. }
    intros [sorted moves'] m (D' & HC' & HD' & -> & Hm' & ->).
    apply wp_bind.
    eapply wp_loop' with (mu := fun start => f + n - start)
      (I := fun start m => exists j, start = f + j /\ s <= j /\ j < n /\ (forall i, i <= j -> D' i = true) /\
              m = fmem (done_cells D')).
    + exists s. cj; auto.
    + lia.
    + intros start m (j & -> & Hsj & Hj & HDj & ->).
      destruct (Nat.eqb_spec (S (f + j)) (f + n)) as [Ej|Ej].
      * apply wp_ret. apply wp_ret. split; [|lia]. exists n, D'. cj; auto; try lia.
        intros i Hi. apply HDj. lia.
      * replace (S (f + j) - f) with (S j) by lia.
        apply wp_bind, wp_rd_seq; [lia|]. destruct (D' (S j)) eqn:EDj.
        -- apply wp_ret. split; [|lia]. exists (S j). cj; auto; try lia.
           intros i Hi. destruct (Nat.eq_dec i (S j)) as [->|]; auto. apply HDj. lia.
        -- apply wp_ret. apply wp_ret. split; [|lia]. exists (S j), D'. cj; auto; try lia.
           intros i Hi. apply HDj. lia.
Qed.

(** ** indiesort *)
Lemma indie_move_wp : forall (Q : nat -> mem A -> Prop),
  (forall moves, 2 * moves <= 3 * n -> Q moves (fmem (fun j => cellv (p j)))) ->
  wp (indie_move (map (fun j => (f + p j, p j)) (seq 0 n))) Q (fmem cellv).
Proof.
  intros Q HQ. unfold indie_move. rewrite map_length, seq_length. cbv zeta.
  apply wp_bind.
  eapply wp_loop' with (mu := fun '(index, _, _) => n - index)
    (I := fun '(index, storage, moves) m => exists D q, index <= n /\ closed D /\
       (forall j, j < index -> D j = true \/ p j = j) /\
       (forall j, index <= j -> q j = if D j then j else p j) /\
       storage = map (fun j => (f + p j, q j)) (seq 0 n) /\ 2 * moves <= 3 * cnt D n /\ m = fmem (done_cells D)).
  - exists (fun _ => false), p. cj; auto; try lia. intros x _ H. discriminate.
  - lia.
  - intros [[idx storage] moves] m (D & q & Hidx & HC & HD & Hq & -> & Hmv & ->).
    destruct (Nat.eqb_spec idx n) as [E|E].
    { apply wp_ret. apply wp_ret. rewrite done_all. 2:{ intros. apply HD. lia. }
      apply HQ. pose proof (cnt_le D n). lia. }
    assert (idx < n) as Hlt by lia.
    apply wp_bind, wp_rd_seq; auto.
    destruct (Nat.eqb_spec (q idx) idx) as [Eq|Eq].
    { apply wp_ret. split; [|lia]. exists D, q. cj; auto; try lia.
      - intros j Hj. destruct (Nat.eq_dec j idx) as [->|]; [|apply HD; lia].
        rewrite Hq in Eq by lia. destruct (D idx); auto.
      - intros j Hj. apply Hq. lia. }
    assert (D idx = false) as HDi. { rewrite Hq in Eq by lia. destruct (D idx); congruence. }
    rewrite (Hq idx) in * by lia. rewrite HDi in *.
    assert (D (p idx) = false) as HDs.
    { destruct (D (p idx)) eqn:ED; auto. destruct (HC (p idx)) as (y & Hy & HDy & Ey); auto.
      apply Hinj in Ey; auto. congruence. }
    apply wp_bind, wp_take_walk; auto. intros tmp Htmp.
    apply wp_bind.
    eapply wp_mono with (Q := fun '(dest, storage, moves') m => exists D' q', walk D' (p idx) idx /\
       p dest = idx /\ dest < n /\ (forall j, D j = true -> D' j = true) /\
       (forall j, idx < j -> q' j = if D' j then j else p j) /\
       storage = map (fun j => (f + p j, q' j)) (seq 0 n) /\ 2 * moves' + 2 <= 3 * (S (cnt D' n)) /\
       m = fmem (hole_cells D' idx)).
    + eapply wp_loop_k with (k := n - cnt D n)
        (I := fun k '(dest, c, storage, moves') m => exists D' q' i, walk D' (p idx) c /\ c <> idx /\
           p dest = c /\ dest < n /\ (forall j, D j = true -> D' j = true) /\
           (forall j, idx <= j -> q' j = if D' j then j else p j) /\
           storage = map (fun j => (f + p j, q' j)) (seq 0 n) /\
           moves' = moves + 1 + i /\ cnt D' n = cnt D n + i /\ k = n - cnt D' n /\
           m = fmem (hole_cells D' c)).
      * exists D, q, 0. cj; auto; try lia. now apply walk_start; auto.
      * lia.
      * intros k [[[dest c] storage] moves'] m
          (D' & q' & i & HW & Hci & Hdc & Hdn & HDD & Hq' & -> & -> & Hcnt & -> & ->).
        pose proof HW as (_ & Hc & HDc & _).
        assert (p c <> p idx) as Hne. { intros Ec. apply Hinj in Ec; auto. }
        pose proof (walk_next D' (p idx) c HW Hne) as [HN HNc].
        assert (idx < c) as Hic.
        { destruct (Nat.lt_trichotomy c idx) as [Hx|[Hx|Hx]]; auto; [|lia].
          destruct (HD c Hx) as [Hd|Hd]; [|congruence]. apply HDD in Hd. congruence. }
        apply wp_bind, wp_rd_seq; auto. apply wp_bind, wp_rd_seq; auto. rewrite Hdc.
        apply wp_bind. eapply wp_move_walk; eauto.
        apply wp_bind, wp_rd_seq; auto. apply wp_bind, wp_wr_seq; auto.
        rewrite (Hq' c) by lia. rewrite HDc.
        pose proof (cnt_lt _ _ _ Hc HDc).
        set (q'' := fun j => if j =? c then c else q' j).
        assert (map (fun j => if j =? c then (f + p c, c) else (f + p j, q' j)) (seq 0 n)
           = map (fun j => (f + p j, q'' j)) (seq 0 n)) as ->.
        { apply map_seq_ext. intros j Hj. unfold q''. destruct (Nat.eqb_spec j c); subst; auto. }
        assert (forall j, idx <= j -> q'' j = if fin D' c j then j else p j) as Hq''.
        { intros j Hj. unfold q'', fin. destruct (Nat.eqb_spec j c); auto. }
        assert (forall j, D j = true -> fin D' c j = true) as HDD'.
        { intros j Hj. unfold fin. destruct (j =? c); auto. }
        pose proof (walk_step D' (p idx) c HW Hne) as HW'.
        destruct (Nat.eqb_spec (p c) idx) as [Ec|Ec]; cbn [negb]; apply wp_ret.
        -- exists (fin D' c), q''. rewrite cnt_fin by auto. rewrite Ec in *. cj; auto; try lia.
           intros j Hj. apply Hq''. lia.
        -- exists (n - cnt (fin D' c) n). split. { rewrite cnt_fin by auto. lia. }
           exists (fin D' c), q'', (S i). rewrite cnt_fin by auto. cj; auto; try lia.
    + intros [[dest storage] moves'] m (D' & q' & HW & Hdi & Hdn & HDD & Hq' & -> & Hm' & ->).
      pose proof HW as (_ & Hc & HDc & Hsc & _).
      apply wp_bind, wp_rd_seq; auto. rewrite Hdi.
      apply wp_bind. eapply wp_put_walk; eauto. apply wp_ret. split; [|lia].
      exists (fin D' idx), q'. rewrite cnt_fin by auto. cj; auto; try lia.
      * eapply walk_end; eauto.
      * intros j Hj. unfold fin. destruct (Nat.eqb_spec j idx); auto.
        destruct (HD j) as [Hd|Hd]; auto. lia.
      * intros j Hj. unfold fin. destruct (Nat.eqb_spec j idx); [lia|]. apply Hq'. lia.
Qed.
End Walk.

(** * From lists of positions to lists of elements *)
Section Lists.
Context {A : Type}.

Definition gather (xs : list A) (idx : list nat) (ys : list A) : Prop :=
  map Some ys = map (nth_error xs) idx.

Lemma map_nth_error_seq : forall (xs : list A), map (nth_error xs) (seq 0 (length xs)) = map Some xs.
Proof.
  intros. apply nth_ext. intros i. destruct (Nat.ltb_spec i (length xs)).
  - rewrite nth_map_seq by auto. rewrite nth_error_map.
    destruct (nth_error xs i) eqn:E; auto. apply nth_error_None in E. lia.
  - rewrite !(proj2 (nth_error_None _ _)); auto; rewrite map_length, ?seq_length; lia.
Qed.
Lemma map_Some_perm : forall (xs ys : list A), Permutation (map Some xs) (map Some ys) -> Permutation xs ys.
Proof.
  intros xs ys H. apply Permutation_map_inv in H as (l & E & HP).
  enough (xs = l) by (subst; now symmetry).
  clear HP. revert l E. induction xs; destruct l; simpl; intros E; try discriminate; auto.
  inversion E. subst. f_equal. auto.
Qed.
Lemma gather_ex : forall (xs : list A) idx, (forall k, In k idx -> k < length xs) -> exists ys, gather xs idx ys.
Proof.
  unfold gather. induction idx as [|k idx IH]; intros H.
  - now exists [].
  - destruct IH as (ys & E). { intros. apply H. simpl. auto. }
    destruct (nth_error xs k) as [x|] eqn:Ek.
    + exists (x :: ys). simpl. rewrite Ek. congruence.
    + apply nth_error_None in Ek. specialize (H k). simpl in H. lia.
Qed.
Lemma gather_perm : forall (xs : list A) idx ys, Permutation idx (seq 0 (length xs)) ->
  gather xs idx ys -> Permutation xs ys.
Proof.
  unfold gather. intros xs idx ys HP E. apply map_Some_perm. rewrite E, HP, map_nth_error_seq. reflexivity.
Qed.
Lemma gather_nth : forall (xs : list A) idx ys i k, gather xs idx ys -> nth_error idx i = Some k ->
  k < length xs -> nth_error ys i = nth_error xs k.
Proof.
  unfold gather. intros xs idx ys i k E Hi Hk.
  assert (nth_error (map Some ys) i = Some (nth_error xs k)) as H.
  { rewrite E. now apply map_nth_error. }
  rewrite nth_error_map in H. destruct (nth_error ys i); simpl in H; [congruence|discriminate].
Qed.
Lemma gather_cells : forall (xs : list A) idx ys, (forall k, In k idx -> k < length xs) -> gather xs idx ys ->
  map (cellv xs) idx = map Val ys.
Proof.
  unfold gather. induction idx as [|k idx IH]; intros ys H E; destruct ys as [|y ys]; simpl in E; try discriminate; auto.
  simpl. inversion E. f_equal.
  - unfold cellv. apply nth_error_nth. now apply map_nth_error.
  - apply IH; auto. intros. apply H. simpl. auto.
Qed.
Lemma fmem_gather : forall (pre post : mem A) xs idx ys, Permutation idx (seq 0 (length xs)) -> gather xs idx ys ->
  fmem pre post xs (fun j => cellv xs (nth j idx 0)) = pre ++ map Val ys ++ post.
Proof.
  intros pre post xs idx ys HP HG. unfold fmem. do 2 f_equal.
  pose proof (Permutation_length HP) as HL. rewrite seq_length in HL.
  rewrite <- (gather_cells xs idx ys); auto.
  - rewrite <- (map_map (fun j => nth j idx 0) (cellv xs)). f_equal.
    rewrite <- HL. symmetry. apply list_map_seq.
  - intros k Hk. apply (Permutation_in _ HP), in_seq in Hk. lia.
Qed.
Lemma perm_bounds : forall idx n, Permutation idx (seq 0 n) ->
  (forall j, j < n -> nth j idx 0 < n) /\
  (forall i j, i < n -> j < n -> nth i idx 0 = nth j idx 0 -> i = j) /\
  idx = map (fun j => nth j idx 0) (seq 0 n).
Proof.
  intros idx n HP. pose proof (Permutation_length HP) as HL. rewrite seq_length in HL. cj.
  - intros j Hj. assert (In (nth j idx 0) idx) as HI by (apply nth_In; lia).
    apply (Permutation_in _ HP), in_seq in HI. lia.
  - intros i j Hi Hj E. assert (NoDup idx) as HN.
    { eapply Permutation_NoDup; [symmetry; exact HP|apply seq_NoDup]. }
    apply (proj1 (NoDup_nth idx 0) HN); auto; lia.
  - rewrite (list_map_seq _ idx 0) at 1. now rewrite HL.
Qed.

Theorem apply_permutation_ok : forall pre (xs : list A) post idx, Permutation idx (seq 0 (length xs)) ->
  exists ys,
    apply_permutation (length pre) (length pre + length xs) idx (pre ++ map Val xs ++ post)
      = Ok (seq 0 (length xs)) (pre ++ map Val ys ++ post)
    /\ Permutation xs ys /\ gather xs idx ys.
Proof.
  intros pre xs post idx HP.
  destruct (perm_bounds idx _ HP) as (Hb & Hi & Em).
  destruct (gather_ex xs idx) as (ys & HG).
  { intros k Hk. apply (Permutation_in _ HP), in_seq in Hk. lia. }
  exists ys.
  assert (wp (apply_permutation (length pre) (length pre + length xs) idx)
    (fun l m => l = seq 0 (length xs) /\ m = pre ++ map Val ys ++ post) (pre ++ map Val xs ++ post)) as HW.
  { rewrite (fmem_init pre post xs). rewrite Em at 1. apply apply_permutation_wp; auto.
    split; auto. now apply fmem_gather. }
  apply wp_ok in HW as (l & m & -> & -> & ->). split; auto. split; auto. eapply gather_perm; eauto.
Qed.

(** Elements with their positions from [f] on. *)
Definition tag (f : nat) (xs : list A) : list (nat * A) := combine (seq f (length xs)) xs.
Lemma tag_fst : forall xs f, map fst (tag f xs) = seq f (length xs).
Proof. unfold tag. induction xs; intros; simpl; auto. f_equal. auto. Qed.
Lemma tag_snd : forall xs f, map snd (tag f xs) = xs.
Proof. unfold tag. induction xs; intros; simpl; auto. f_equal. auto. Qed.
Lemma tag_app : forall xs f x, tag f (xs ++ [x]) = tag f xs ++ [(f + length xs, x)].
Proof.
  unfold tag. induction xs; intros; simpl.
  - now rewrite Nat.add_0_r.
  - f_equal. rewrite IHxs. do 3 f_equal. lia.
Qed.
Lemma tag_In : forall xs f k x, In (k, x) (tag f xs) -> f <= k /\ nth_error xs (k - f) = Some x.
Proof.
  unfold tag. induction xs; intros f k x; simpl; [tauto|]. intros [E|H].
  - inversion E; subst. rewrite Nat.sub_diag. auto.
  - apply IHxs in H as [H1 H2]. split; [lia|]. replace (k - f) with (S (k - S f)) by lia. auto.
Qed.

(** What a permutation of the tagged elements gives. *)
Lemma tag_perm : forall f xs v, Permutation (tag f xs) v ->
  Permutation (map (fun it => fst it - f) v) (seq 0 (length xs)) /\
  gather xs (map (fun it => fst it - f) v) (map snd v) /\
  map fst v = map (fun j => f + nth j (map (fun it => fst it - f) v) 0) (seq 0 (length xs)).
Proof.
  intros f xs v HP.
  assert (forall it, In it v -> f <= fst it /\ nth_error xs (fst it - f) = Some (snd it)) as HI.
  { intros [k x] H. apply tag_In. eapply Permutation_in; [symmetry; eauto|auto]. }
  assert (Permutation (map (fun it => fst it - f) v) (seq 0 (length xs))) as HP'.
  { rewrite <- HP. rewrite <- (map_map fst (fun k => k - f)), tag_fst.
    clear. generalize (length xs) as n. intros n.
    replace (map (fun k => k - f) (seq f n)) with (seq 0 n); auto.
    replace f with (f + 0) at 2 by lia. rewrite <- (Nat.add_0_r f) at 1. generalize 0 as k.
    induction n; intros k; simpl; auto. f_equal; [lia|].
    rewrite (IHn (S k)). replace (f + S k) with (S (f + k)) by lia. apply map_ext. intros. lia. }
  split; auto. split.
  - unfold gather. rewrite !map_map. apply map_ext_in. intros it H. symmetry. now apply HI.
  - destruct (perm_bounds _ _ HP') as (_ & _ & Em).
    rewrite <- (map_map (fun j => nth j (map (fun it => fst it - f) v) 0) (fun k => f + k)), <- Em, map_map.
    apply map_ext_in. intros it H. apply HI in H. lia.
Qed.

Lemma nth_split_at : forall (pre : mem A) done a todo post,
  nth_error (pre ++ map Val (done ++ a :: todo) ++ post) (length pre + length done) = Some (Val a).
Proof.
  intros. rewrite nth_pre_map_post by lens.
  rewrite nth_error_app2 by lia. now rewrite Nat.sub_diag.
Qed.

Lemma iterators_wp : forall pre xs post (Q : list (nat * A) -> mem A -> Prop),
  Q (tag (length pre) xs) (pre ++ map Val xs ++ post) ->
  wp (iterators (length pre) (length pre + length xs)) Q (pre ++ map Val xs ++ post).
Proof.
  intros pre xs post Q HQ. unfold iterators.
  eapply wp_loop' with (mu := fun '(it, _) => length pre + length xs - it)
    (I := fun '(it, v) m => exists done todo, xs = done ++ todo /\ it = length pre + length done /\
       v = tag (length pre) done /\ m = pre ++ map Val xs ++ post).
  - exists [], xs. cj; auto; simpl; lia.
  - lia.
  - intros [it v] m (done & todo & Ex & -> & -> & ->).
    destruct (Nat.eqb_spec (length pre + length done) (length pre + length xs)) as [E|E].
    + apply wp_ret. subst xs. destruct todo; [|lens]. now rewrite app_nil_r in *.
    + destruct todo as [|a todo]. { subst xs. rewrite app_nil_r in E. lia. }
      apply wp_bind. eapply wp_get. { rewrite Ex. apply nth_split_at. }
      apply wp_ret. split; [|subst xs; lens]. exists (done ++ [a]), todo. cj; auto.
      * now rewrite <- app_assoc.
      * lens.
      * now rewrite tag_app.
Qed.
End Lists.

Section Adapters.
Context {A T : Type}.
Implicit Types (comp : T -> T -> bool) (proj : A -> T).

Lemma sorted_iterators_wp : forall (R : list (nat * A) -> list (nat * A) -> Prop) inner comp proj pre xs post
    (Q : list nat -> mem A -> Prop),
  runs R (inner comp (fun it => proj (snd it))) ->
  (forall v, R (tag (length pre) xs) v -> Q (map fst v) (pre ++ map Val xs ++ post)) ->
  wp (sorted_iterators inner comp proj (length pre) (length pre + length xs)) Q (pre ++ map Val xs ++ post).
Proof.
  intros R inner comp proj pre xs post Q HR HQ. unfold sorted_iterators.
  apply wp_bind, iterators_wp. apply wp_bind. eapply wp_sort_vector; [exact HR|].
  intros v Hv. apply wp_ret. auto.
Qed.

Lemma sorted_indices_wp : forall (R : list (nat * A) -> list (nat * A) -> Prop) inner comp proj pre xs post
    (Q : list nat -> mem A -> Prop),
  runs R (inner comp (fun it => proj (snd it))) ->
  (forall v, R (tag 0 xs) v -> Q (map fst v) (pre ++ map Val xs ++ post)) ->
  wp (sorted_indices inner comp proj (length pre) (length pre + length xs)) Q (pre ++ map Val xs ++ post).
Proof.
  intros R inner comp proj pre xs post Q HR HQ. unfold sorted_indices.
  replace (length pre + length xs - length pre) with (length xs) by lia. cbv zeta.
  apply wp_bind.
  eapply wp_loop' with (mu := fun '(it, _) => length xs - it)
    (I := fun '(it, v) m => exists done todo, xs = done ++ todo /\ it = length done /\
       v = tag 0 done /\ m = pre ++ map Val xs ++ post).
  - exists [], xs. cj; auto.
  - lia.
  - intros [it v] m (done & todo & Ex & -> & -> & ->).
    destruct (Nat.eqb_spec (length done) (length xs)) as [E|E].
    + apply wp_ret. assert (todo = []) as -> by (subst xs; destruct todo; [auto|lens]).
      rewrite app_nil_r in Ex. subst done.
      apply wp_bind. eapply wp_sort_vector; [exact HR|]. intros v Hv. apply wp_ret. auto.
    + destruct todo as [|a todo]. { subst xs. rewrite app_nil_r in E. lia. }
      apply wp_bind. eapply wp_get. { rewrite Ex. apply nth_split_at. }
      apply wp_ret. split; [|subst xs; lens]. exists (done ++ [a]), todo. cj; auto.
      * now rewrite <- app_assoc.
      * lens.
      * now rewrite tag_app.
Qed.

Lemma perm_short : forall X (l l' : list X), length l < 2 -> Permutation l l' -> l' = l.
Proof.
  intros X [|x [|y l]] l' H HP; simpl in H; try lia.
  - now apply Permutation_nil.
  - now apply Permutation_length_1_inv.
Qed.

Lemma sort_indirectly_wp : forall (R : list (nat * A) -> list (nat * A) -> Prop) inner comp proj pre xs post
    (Q : nat -> mem A -> Prop),
  (forall v v', R v v' -> Permutation v v') ->
  runs R (inner comp (fun it => proj (snd it))) ->
  (forall v moves, R (tag (length pre) xs) v -> 2 * moves <= 3 * length xs ->
      Q moves (pre ++ map Val (map snd v) ++ post)) ->
  wp (sort_indirectly inner comp proj (length pre) (length pre + length xs)) Q (pre ++ map Val xs ++ post).
Proof.
  intros R inner comp proj pre xs post Q HRP HR HQ. unfold sort_indirectly.
  apply wp_bind, iterators_wp. apply wp_bind. eapply wp_sort_vector; [exact HR|].
  intros v Hv. pose proof (HRP _ _ Hv) as HP.
  replace (length pre + length xs - length pre) with (length xs) by lia.
  destruct (Nat.ltb_spec (length xs) 2) as [Hs|Hs].
  - apply wp_ret. assert (v = tag (length pre) xs) as ->.
    { apply perm_short; auto. unfold tag. rewrite combine_length, seq_length. lia. }
    specialize (HQ _ 0 Hv). rewrite tag_snd in HQ. apply HQ. lia.
  - destruct (tag_perm _ _ _ HP) as (HPi & HG & ->).
    destruct (perm_bounds _ _ HPi) as (Hb & Hi & Em).
    rewrite (fmem_init pre post xs). apply move_along_wp; auto.
    intros moves Hm. erewrite fmem_gather; eauto.
Qed.

Definition tag3 (f : nat) (xs : list A) : list (nat * A * nat) :=
  map (fun it => (fst it, snd it, fst it - f)) (tag f xs).

Lemma indiesort_wp : forall (R : list it_and_index -> list it_and_index -> Prop) inner comp proj pre xs post
    (Q : nat -> mem A -> Prop),
  (forall v v', R v v' -> Permutation v v') ->
  runs R (inner comp (fun t => proj (snd (fst t)))) ->
  (forall v moves, R (tag3 (length pre) xs) v -> 2 * moves <= 3 * length xs ->
      Q moves (pre ++ map Val (map (fun t => snd (fst t)) v) ++ post)) ->
  wp (indiesort inner comp proj (length pre) (length pre + length xs)) Q (pre ++ map Val xs ++ post).
Proof.
  intros R inner comp proj pre xs post Q HRP HR HQ. unfold indiesort.
  apply wp_bind. replace (length pre + length xs - length pre) with (length xs) by lia.
  eapply wp_loop' with (mu := fun '(it, _, _) => length pre + length xs - it)
    (I := fun '(it, index, v) m => exists done todo, xs = done ++ todo /\ it = length pre + length done /\
       index = length done /\ v = tag3 (length pre) done /\ m = pre ++ map Val xs ++ post).
  { exists [], xs. cj; auto; simpl; lia. }
  { lia. }
  intros [[it index] v] m (done & todo & Ex & -> & -> & -> & ->).
  destruct (Nat.eqb_spec (length pre + length done) (length pre + length xs)) as [E|E].
  2:{ destruct todo as [|a todo]. { subst xs. rewrite app_nil_r in E. lia. }
      apply wp_bind. eapply wp_get. { rewrite Ex. apply nth_split_at. }
      apply wp_ret. split; [|subst xs; lens]. exists (done ++ [a]), todo. cj; auto.
      * now rewrite <- app_assoc.
      * lens.
      * lens.
      * unfold tag3. rewrite tag_app, map_app. simpl. do 4 f_equal. lia. }
  apply wp_ret. assert (todo = []) as -> by (subst xs; destruct todo; [auto|lens]).
  rewrite app_nil_r in Ex. subst done. clear E.
  apply wp_bind. eapply wp_sort_vector; [exact HR|].
  intros v Hv. pose proof (HRP _ _ Hv) as HP.
  unfold tag3 in HP. apply Permutation_sym, Permutation_map_inv in HP as (u & -> & HP).
  assert (map (fun t : it_and_index => snd (fst t)) (map (fun it => (fst it, snd it, fst it - length pre)) u) = map snd u) as Es.
  { rewrite map_map. reflexivity. }
  destruct (Nat.ltb_spec (length xs) 2) as [Hs|Hs].
  - apply wp_ret. assert (u = tag (length pre) xs) as Eu.
    { apply perm_short; auto. unfold tag. rewrite combine_length, seq_length. lia. }
    rewrite <- (tag_snd xs (length pre)), <- Eu, <- Es. apply (HQ _ 0 Hv). lia.
  - destruct (tag_perm _ _ _ HP) as (HPi & HG & Ef).
    destruct (perm_bounds _ _ HPi) as (Hb & Hi & Em).
    rewrite map_map. simpl.
    match goal with |- wp (indie_move ?l) _ _ => assert (l =
      map (fun j => (length pre + nth j (map (fun it => fst it - length pre) u) 0, nth j (map (fun it => fst it - length pre) u) 0)) (seq 0 (length xs))) as -> end.
    { set (p := fun j => nth j (map (fun it => fst it - length pre) u) 0) in *.
      transitivity (combine (map fst u) (map (fun it => fst it - length pre) u)).
      { clear. induction u; simpl; auto. f_equal. auto. }
      rewrite Ef at 1. rewrite Em at 1. generalize (seq 0 (length xs)) as l.
      induction l; simpl; auto. f_equal. auto. }
    rewrite (fmem_init pre post xs). apply indie_move_wp; auto.
    intros moves Hm. rewrite (fmem_gather _ _ _ _ _ HPi HG), <- Es. exact (HQ _ moves Hv Hm).
Qed.
End Adapters.

(** * Sorting through a function *)
Section MapSort.
Context {A E : Type} (lt : A -> A -> bool) (g : E -> A).
Lemma sorted_map : forall v, sorted (by_proj lt g) v -> sorted lt (map g v).
Proof.
  intros v HS i j x y Hij Hi Hj. rewrite nth_error_map in Hi, Hj.
  destruct (nth_error v i) eqn:Ei; inversion Hi; subst. destruct (nth_error v j) eqn:Ej; inversion Hj; subst.
  apply (HS i j _ _ Hij Ei Ej).
Qed.
Lemma filter_map_comm : forall (h : A -> bool) v, filter h (map g v) = map g (filter (fun e => h (g e)) v).
Proof. induction v; simpl; auto. destruct (h (g a)); simpl; now rewrite IHv. Qed.
Lemma sorting_map : forall v v', is_sorting_of (by_proj lt g) v v' -> is_sorting_of lt (map g v) (map g v').
Proof. intros v v' [HP HS]. split; [now apply Permutation_map|now apply sorted_map]. Qed.
Lemma stable_sorting_map : strict_weak_order lt -> forall v v',
  is_stable_sorting_of (by_proj lt g) v v' -> is_stable_sorting_of lt (map g v) (map g v').
Proof.
  intros HW v v' (HP & HS & HO). split; [now apply Permutation_map|]. split; [now apply sorted_map|].
  intros x. rewrite !filter_map_comm.
  destruct (filter (fun e => equivalent lt x (g e)) v) as [|e r] eqn:Ev.
  { destruct (filter (fun e => equivalent lt x (g e)) v') as [|e' r'] eqn:Ev'; auto. exfalso.
    assert (In e' (filter (fun e => equivalent lt x (g e)) v')) as HI by (rewrite Ev'; simpl; auto).
    apply filter_In in HI as [HI Hx]. apply (Permutation_in _ (Permutation_sym HP)) in HI.
    assert (In e' (filter (fun e => equivalent lt x (g e)) v)) as HJ by (apply filter_In; auto).
    rewrite Ev in HJ. destruct HJ. }
  rewrite <- Ev. f_equal.
  assert (equivalent lt x (g e) = true) as Hx.
  { assert (In e (filter (fun e => equivalent lt x (g e)) v)) as HI by (rewrite Ev; simpl; auto).
    apply filter_In in HI. tauto. }
  assert (forall l, filter (fun e' => equivalent lt x (g e')) l = filter (equivalent (by_proj lt g) e) l) as K.
  { intros l. apply filter_ext. intros e'. exact (eqv_ext lt HW x (g e) Hx (g e')). }
  rewrite !K. apply HO.
Qed.
End MapSort.

Section Results.
Context {A T : Type} (comp : T -> T -> bool) (proj : A -> T).

Lemma sort_indirectly_gen : forall (R : list (nat * A) -> list (nat * A) -> Prop) (R' : list A -> list A -> Prop) inner,
  (forall v v', R v v' -> Permutation v v') ->
  (forall v v', R v v' -> R' (map snd v) (map snd v')) ->
  runs R (inner comp (fun it => proj (snd it))) ->
  forall pre xs post, exists moves ys,
    sort_indirectly inner comp proj (length pre) (length pre + length xs) (pre ++ map Val xs ++ post)
      = Ok moves (pre ++ map Val ys ++ post) /\ R' xs ys /\ 2 * moves <= 3 * length xs.
Proof.
  intros R R' inner HRP HRR HR pre xs post.
  assert (wp (sort_indirectly inner comp proj (length pre) (length pre + length xs))
    (fun moves m => exists ys, m = pre ++ map Val ys ++ post /\ R' xs ys /\ 2 * moves <= 3 * length xs)
    (pre ++ map Val xs ++ post)) as HW.
  { eapply sort_indirectly_wp; eauto. intros v moves Hv Hm. exists (map snd v). split; auto. split; auto.
    apply HRR in Hv. now rewrite tag_snd in Hv. }
  apply wp_ok in HW as (moves & m & E & ys & -> & H). exists moves, ys. auto.
Qed.

Lemma indiesort_gen : forall (R : list it_and_index -> list it_and_index -> Prop) (R' : list A -> list A -> Prop) inner,
  (forall v v', R v v' -> Permutation v v') ->
  (forall v v', R v v' -> R' (map (fun t => snd (fst t)) v) (map (fun t => snd (fst t)) v')) ->
  runs R (inner comp (fun t => proj (snd (fst t)))) ->
  forall pre xs post, exists moves ys,
    indiesort inner comp proj (length pre) (length pre + length xs) (pre ++ map Val xs ++ post)
      = Ok moves (pre ++ map Val ys ++ post) /\ R' xs ys /\ 2 * moves <= 3 * length xs.
Proof.
  intros R R' inner HRP HRR HR pre xs post.
  assert (wp (indiesort inner comp proj (length pre) (length pre + length xs))
    (fun moves m => exists ys, m = pre ++ map Val ys ++ post /\ R' xs ys /\ 2 * moves <= 3 * length xs)
    (pre ++ map Val xs ++ post)) as HW.
  { eapply indiesort_wp; eauto. intros v moves Hv Hm. exists (map (fun t => snd (fst t)) v). split; auto. split; auto.
    apply HRR in Hv. unfold tag3 in Hv. rewrite map_map in Hv. simpl in Hv.
    change (map (fun x => snd x) (tag (length pre) xs)) with (map snd (tag (length pre) xs)) in Hv.
    now rewrite tag_snd in Hv. }
  apply wp_ok in HW as (moves & m & E & ys & -> & H). exists moves, ys. auto.
Qed.

Lemma sorted_iterators_gen : forall (R : list (nat * A) -> list (nat * A) -> Prop) (R' : list A -> list A -> Prop) inner,
  (forall v v', R v v' -> Permutation v v') ->
  (forall v v', R v v' -> R' (map snd v) (map snd v')) ->
  runs R (inner comp (fun it => proj (snd it))) ->
  forall pre xs post, exists its ys,
    sorted_iterators inner comp proj (length pre) (length pre + length xs) (pre ++ map Val xs ++ post)
      = Ok its (pre ++ map Val xs ++ post) /\
    Permutation its (seq (length pre) (length xs)) /\
    map (fun it => nth_error (pre ++ map Val xs ++ post) it) its = map (fun y => Some (Val y)) ys /\ R' xs ys.
Proof.
  intros R R' inner HRP HRR HR pre xs post.
  assert (wp (sorted_iterators inner comp proj (length pre) (length pre + length xs))
    (fun its m => m = pre ++ map Val xs ++ post /\ exists v, its = map fst v /\ R (tag (length pre) xs) v)
    (pre ++ map Val xs ++ post)) as HW.
  { eapply sorted_iterators_wp; eauto. }
  apply wp_ok in HW as (its & m & E & -> & v & -> & Hv).
  exists (map fst v), (map snd v). pose proof (HRP _ _ Hv) as HP. cj; auto.
  - rewrite <- HP. now rewrite tag_fst.
  - rewrite !map_map. apply map_ext_in. intros [k x] HI.
    apply (Permutation_in _ (Permutation_sym HP)), tag_In in HI as [Hk Hx]. simpl.
    replace k with (length pre + (k - length pre)) by lia.
    rewrite nth_pre_map_post by (apply nth_lt in Hx; auto). now rewrite Hx.
  - apply HRR in Hv. now rewrite tag_snd in Hv.
Qed.

Lemma sorted_indices_gen : forall (R : list (nat * A) -> list (nat * A) -> Prop) (R' : list A -> list A -> Prop) inner,
  (forall v v', R v v' -> Permutation v v') ->
  (forall v v', R v v' -> R' (map snd v) (map snd v')) ->
  runs R (inner comp (fun it => proj (snd it))) ->
  forall pre xs post, exists idx ys,
    sorted_indices inner comp proj (length pre) (length pre + length xs) (pre ++ map Val xs ++ post)
      = Ok idx (pre ++ map Val xs ++ post) /\
    Permutation idx (seq 0 (length xs)) /\
    map (nth_error xs) idx = map Some ys /\ R' xs ys.
Proof.
  intros R R' inner HRP HRR HR pre xs post.
  assert (wp (sorted_indices inner comp proj (length pre) (length pre + length xs))
    (fun its m => m = pre ++ map Val xs ++ post /\ exists v, its = map fst v /\ R (tag 0 xs) v)
    (pre ++ map Val xs ++ post)) as HW.
  { eapply sorted_indices_wp; eauto. }
  apply wp_ok in HW as (its & m & E & -> & v & -> & Hv).
  exists (map fst v), (map snd v). pose proof (HRP _ _ Hv) as HP. cj; auto.
  - rewrite <- HP. now rewrite tag_fst.
  - rewrite !map_map. apply map_ext_in. intros [k x] HI.
    apply (Permutation_in _ (Permutation_sym HP)), tag_In in HI as [Hk Hx]. simpl.
    now replace (k - 0) with k in Hx by lia.
  - apply HRR in Hv. now rewrite tag_snd in Hv.
Qed.
End Results.
