(** ska_sort: the distribution of the elements. *)
From Coq Require Import List Arith NArith Lia Permutation Bool.
From Verif Require Import Spec.Order Lang.Mem Spec.Sorts Proofs.Wp Proofs.OrderLib Model.Indirect Proofs.Indirect Proofs.Search Proofs.Regions Proofs.Bins Model.Ska.
Import ListNotations.
Local Arguments nth_error : simpl never.
Local Arguments upd : simpl never.
Local Arguments Nat.leb : simpl never.
Local Arguments Nat.ltb : simpl never.
Local Arguments Nat.eqb : simpl never.
Local Arguments Nat.sub : simpl never.
Local Arguments seq : simpl never.
Local Arguments loop : simpl never.

Lemma wp_swap_seg : forall A m f (ys : list A) i j x y (Q : unit -> mem A -> Prop), seg m f ys -> nth_error ys i = Some x -> nth_error ys j = Some y ->
  (forall m', seg m' f (upd j x (upd i y ys)) -> only (within f (length ys)) m m' -> Q tt m') -> wp (swap (f + i) (f + j)) Q m.
Proof.
  intros A m f ys i j x y Q HS Hi Hj HQ. pose proof (nth_lt _ _ _ Hi). pose proof (nth_lt _ _ _ Hj). pose proof (seg_len _ _ _ HS) as HL.
  eapply wp_swap; [eapply seg_get; eauto|eapply seg_get; eauto|]. apply HQ.
  - split; [now rewrite !upd_length|]. intros k z Hk. destruct (Nat.eq_dec j k) as [<-|Hjk].
    + rewrite nth_upd_eq in Hk by (rewrite upd_length; auto). rewrite nth_upd_eq by (rewrite upd_length; lia). congruence.
    + rewrite nth_upd_ne in Hk by auto. rewrite nth_upd_ne by lia. destruct (Nat.eq_dec i k) as [<-|Hik].
      * rewrite nth_upd_eq in Hk by auto. rewrite nth_upd_eq by lia. congruence.
      * rewrite nth_upd_ne in Hk by auto. rewrite nth_upd_ne by lia. eapply seg_get; eauto.
  - eapply only_trans; apply only_upd; unfold within; lia.
Qed.

Lemma firstn_snoc : forall X (l : list X) i x, nth_error l i = Some x -> firstn (S i) l = firstn i l ++ [x].
Proof. induction l as [|a l IH]; intros [|i] x H; try discriminate. { now injection H as ->. } cbn [firstn app]. f_equal. now apply IH. Qed.

Lemma filter_seq_sorted : forall (f : nat -> bool) n a i j x y, i < j -> nth_error (filter f (seq a n)) i = Some x -> nth_error (filter f (seq a n)) j = Some y -> x < y.
Proof.
  induction n as [|n IH]; intros a i j x y Hij Hx Hy. { destruct i; discriminate. }
  change (seq a (S n)) with (a :: seq (S a) n) in Hx, Hy. cbn [filter] in Hx, Hy.
  destruct (f a); [|eapply IH; eauto]. destruct i as [|i].
  - injection Hx as <-. destruct j as [|j]; [lia|]. change (nth_error (filter f (seq (S a) n)) j = Some y) in Hy. apply nth_error_In in Hy. apply filter_In in Hy as [Hy _]. apply in_seq in Hy. lia.
  - destruct j as [|j]; [lia|]. eapply (IH (S a) i j); eauto. lia.
Qed.

Local Opaque seq.

Section Pass.
Context {A T : Type} (proj : A -> T) (sub_key : T -> N) (k : nat).
Local Notation byte := (current_byte proj sub_key k).
Implicit Types (m : mem A).

Lemma byte_lt : forall x, byte x < 256.
Proof. intros x. unfold current_byte. assert (N.lt ((sub_key (proj x) / 256 ^ N.of_nat (k - 1)) mod 256)%N 256%N) by now apply N.mod_lt. lia. Qed.

Lemma count_bytes_wp : forall xs m f, seg m f xs ->
  wp (count_bytes proj sub_key k f (f + length xs)) (fun off m' => m' = m /\ off = map (cnt byte xs) (seq 0 256)) m.
Proof.
  intros xs m f HS. unfold count_bytes.
  apply wp_loop' with (I := fun '(it, off) m' => m' = m /\ exists i, it = f + i /\ i <= length xs /\ off = map (cnt byte (firstn i xs)) (seq 0 256)) (mu := fun '(it, _) => f + length xs - it); [|lia|].
  - split; auto. exists 0. cj; auto; try lia.
  - intros [it off] m' (-> & i & -> & Hi & ->). destruct (Nat.eqb_spec (f + i) (f + length xs)) as [E|E].
    + apply wp_ret. split; auto. replace i with (length xs) by lia. now rewrite firstn_all.
    + destruct (nth_some _ xs i) as (x & Hx); [lia|]. wstep. eapply wp_get; [eapply seg_get; eauto|]. wstep. apply wp_rd_seq; [apply byte_lt|]. wstep. apply wp_wr_seq; [apply byte_lt|].
      apply wp_ret. split; [|lia]. split; auto. exists (S i). cj; try lia. apply map_seq_ext. intros j Hj.
      rewrite (firstn_snoc _ xs i x) by auto. unfold cnt. rewrite !filter_app, !app_length. cbn [filter]. rewrite (Nat.eqb_sym (byte x) j). destruct (Nat.eqb_spec j (byte x)); subst; cbn [length]; lia.
Qed.

Section Fixed.
Context (xs : list A) (f : nat) (m0 : mem A).
Local Notation n := (length xs).
Local Notation cnt := (cnt byte xs).
Local Notation start := (start byte xs).
Local Notation placed := (placed 256 byte xs).
Local Notation blocked := (blocked byte xs).
Let HB : forall x, In x xs -> byte x < 256 := fun x _ => byte_lt x.

Definition nonempty (p : nat) : bool := negb (cnt p =? 0).
Definition Rem : list nat := filter nonempty (seq 0 256).

Lemma rem_in : forall p, In p Rem <-> p < 256 /\ 0 < cnt p.
Proof. intros p. unfold Rem, nonempty. rewrite filter_In, in_seq. destruct (Nat.eqb_spec (cnt p) 0); split; intros [? ?]; split; try lia; try discriminate; auto. Qed.

(** The state: the elements permuted, nothing else changed. *)
Definition state (ys : list A) m : Prop := seg m f ys /\ Permutation xs ys /\ only (within f n) m0 m.

Lemma state_swap : forall ys m i j x y (Q : unit -> mem A -> Prop), state ys m -> nth_error ys i = Some x -> nth_error ys j = Some y ->
  (forall m', state (upd j x (upd i y ys)) m' -> Q tt m') -> wp (swap (f + i) (f + j)) Q m.
Proof.
  intros ys m i j x y Q (HS & HP & HO) Hi Hj HQ. eapply wp_swap_seg; eauto. intros m' HS' HO'. apply HQ. split; auto. split.
  - rewrite HP. symmetry. now apply swap_perm.
  - eapply only_trans; eauto. now rewrite (Permutation_length HP).
Qed.
Lemma state_get : forall ys m i x (Q : A -> mem A -> Prop), state ys m -> nth_error ys i = Some x -> Q x m -> wp (get (f + i)) Q m.
Proof. intros ys m i x Q (HS & _) Hx HQ. eapply wp_get; eauto. eapply seg_get; eauto. Qed.
Lemma state_len : forall ys m, state ys m -> length ys = n.
Proof. intros ys m (_ & HP & _). now rewrite (Permutation_length HP). Qed.

Lemma start_le : forall p, p <= 256 -> start p <= n.
Proof. intros p Hp. rewrite <- (start_all 256 byte xs HB). now apply start_mono. Qed.
Lemma placed_ext : forall ys w w', placed ys w -> (forall p, p < 256 -> w' p = w p) -> placed ys w'.
Proof. intros ys w w' H E p Hp. rewrite E by auto. apply (H p Hp). Qed.
Lemma slack_ext : forall w w', (forall p, p < 256 -> w' p = w p) -> slack 256 byte xs w' = slack 256 byte xs w.
Proof. intros w w' E. unfold slack. f_equal. apply map_seq_ext. intros j Hj. now rewrite E. Qed.
Lemma empty_start : forall p, cnt p = 0 -> start (S p) = start p.
Proof. intros p H. rewrite start_S. lia. Qed.

(** * The partitions *)
Lemma american_partitions_wp : forall m, wp (american_partitions (map cnt (seq 0 256)))
  (fun '(o, nx, r) m' => m' = m /\ o = map (fun p => if nonempty p then start p else cnt p) (seq 0 256) /\
     nx = map (fun p => if nonempty p then Some (start (S p)) else None) (seq 0 256) /\ r = Rem) m.
Proof.
  intros m. unfold american_partitions.
  apply wp_loop' with (I := fun '(i, total, o, nx, r) m' => m' = m /\ i <= 256 /\ total = start i /\ o = map (fun p => if (p <? i) && nonempty p then start p else cnt p) (seq 0 256) /\
     nx = map (fun p => if (p <? i) && nonempty p then Some (start (S p)) else None) (seq 0 256) /\ r = filter nonempty (seq 0 i)) (mu := fun '(i, _, _, _, _) => 256 - i); [|lia|].
  - cj; auto; lia.
  - intros [[[[i total] o] nx] r] m' (-> & Hi & -> & -> & -> & ->). destruct (Nat.ltb_spec i 256) as [Hl|Hl].
    + wstep. apply wp_rd_seq; auto. destruct (Nat.ltb_spec i i); [lia|]. cbn [andb].
      assert (E : forall p, (p <? S i) = (p <? i) || (p =? i)). { intros p. destruct (Nat.ltb_spec p (S i)), (Nat.ltb_spec p i), (Nat.eqb_spec p i); auto; lia. }
      assert (EN : nonempty i = negb (cnt i =? 0)) by reflexivity. destruct (Nat.eqb_spec (cnt i) 0) as [E0|E0].
      * apply wp_ret. split; [|lia]. cj; auto; try lia.
        -- now rewrite empty_start.
        -- apply map_seq_ext. intros p _. rewrite E. destruct (Nat.eqb_spec p i) as [->|]; rewrite ?EN; cbn [negb]; rewrite ?andb_false_r, ?orb_false_r; auto.
        -- apply map_seq_ext. intros p _. rewrite E. destruct (Nat.eqb_spec p i) as [->|]; rewrite ?EN; cbn [negb]; rewrite ?andb_false_r, ?orb_false_r; auto.
        -- rewrite seq_S, filter_app. cbn [filter plus]. rewrite EN. cbn [negb]. now rewrite app_nil_r.
      * wstep. apply wp_wr_seq; auto. wstep. apply wp_wr_seq; auto. apply wp_ret. split; [|lia]. cj; auto; try lia.
        -- apply map_seq_ext. intros p _. rewrite E. destruct (Nat.eqb_spec p i) as [->|]; rewrite ?EN; cbn [negb]; rewrite ?orb_true_r, ?orb_false_r; auto.
        -- apply map_seq_ext. intros p _. rewrite E. destruct (Nat.eqb_spec p i) as [->|]; rewrite ?EN; cbn [negb]; rewrite ?orb_true_r, ?orb_false_r; auto.
        -- rewrite seq_S, filter_app. cbn [filter plus]. rewrite EN. reflexivity.
    + apply wp_ret. split; [reflexivity|]. split; [|split].
      * apply map_seq_ext. intros p Hp. destruct (Nat.ltb_spec p i); [reflexivity|lia].
      * apply map_seq_ext. intros p Hp. destruct (Nat.ltb_spec p i); [reflexivity|lia].
      * unfold Rem. now replace i with 256 by lia.
Qed.

Lemma ska_partitions_wp : forall m, wp (ska_partitions (map cnt (seq 0 256)))
  (fun '(o, nx, r) m' => m' = m /\ o = map (fun p => if nonempty p then start p else cnt p) (seq 0 256) /\
     nx = map (fun p => Some (start (S p))) (seq 0 256) /\ r = Rem) m.
Proof.
  intros m. unfold ska_partitions.
  apply wp_loop' with (I := fun '(i, total, o, nx, r) m' => m' = m /\ i <= 256 /\ total = start i /\ o = map (fun p => if (p <? i) && nonempty p then start p else cnt p) (seq 0 256) /\
     nx = map (fun p => if p <? i then Some (start (S p)) else None) (seq 0 256) /\ r = filter nonempty (seq 0 i)) (mu := fun '(i, _, _, _, _) => 256 - i); [|lia|].
  - cj; auto; lia.
  - intros [[[[i total] o] nx] r] m' (-> & Hi & -> & -> & -> & ->). destruct (Nat.ltb_spec i 256) as [Hl|Hl].
    + wstep. apply wp_rd_seq; auto. destruct (Nat.ltb_spec i i); [lia|]. cbn [andb].
      assert (E : forall p, (p <? S i) = (p <? i) || (p =? i)). { intros p. destruct (Nat.ltb_spec p (S i)), (Nat.ltb_spec p i), (Nat.eqb_spec p i); auto; lia. }
      assert (EN : nonempty i = negb (cnt i =? 0)) by reflexivity. destruct (Nat.eqb_spec (cnt i) 0) as [E0|E0].
      * wstep. apply wp_wr_seq; auto. apply wp_ret. split; [|lia]. cj; auto; try lia.
        -- now rewrite empty_start.
        -- apply map_seq_ext. intros p _. rewrite E. destruct (Nat.eqb_spec p i) as [->|]; rewrite ?EN; cbn [negb]; rewrite ?andb_false_r, ?orb_false_r; auto.
        -- apply map_seq_ext. intros p _. rewrite E. destruct (Nat.eqb_spec p i) as [->|]; rewrite ?orb_true_r, ?orb_false_r; auto. now rewrite empty_start.
        -- rewrite seq_S, filter_app. cbn [filter plus]. rewrite EN. cbn [negb]. now rewrite app_nil_r.
      * wstep. apply wp_wr_seq; auto. wstep. apply wp_wr_seq; auto. apply wp_ret. split; [|lia]. cj; auto; try lia.
        -- apply map_seq_ext. intros p _. rewrite E. destruct (Nat.eqb_spec p i) as [->|]; rewrite ?EN; cbn [negb]; rewrite ?orb_true_r, ?orb_false_r; auto.
        -- apply map_seq_ext. intros p _. rewrite E. destruct (Nat.eqb_spec p i) as [->|]; rewrite ?EN; cbn [negb]; rewrite ?orb_true_r, ?orb_false_r; auto.
        -- rewrite seq_S, filter_app. cbn [filter plus]. rewrite EN. reflexivity.
    + apply wp_ret. split; [reflexivity|]. split; [|split].
      * apply map_seq_ext. intros p Hp. destruct (Nat.ltb_spec p i); [reflexivity|lia].
      * apply map_seq_ext. intros p Hp. destruct (Nat.ltb_spec p i); [reflexivity|lia].
      * unfold Rem. now replace i with 256 by lia.
Qed.
End Fixed.
End Pass.
