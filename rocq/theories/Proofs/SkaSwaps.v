(** ska_sort: the two ways to put the elements in the region of their byte. *)
From Coq Require Import List Arith NArith Lia Permutation Bool.
From Verif Require Import Spec.Order Lang.Mem Spec.Sorts Proofs.Wp Proofs.OrderLib Model.Indirect Proofs.Indirect Proofs.Search Proofs.Regions Proofs.Bins Model.Ska Proofs.SkaLib.
Import ListNotations.
Local Arguments nth_error : simpl never.
Local Arguments upd : simpl never.
Local Arguments Nat.leb : simpl never.
Local Arguments Nat.ltb : simpl never.
Local Arguments Nat.eqb : simpl never.
Local Arguments Nat.sub : simpl never.
Local Arguments loop : simpl never.
Local Opaque seq.

Section Swaps.
Context {A T : Type} (proj : A -> T) (sub_key : T -> N) (k : nat).
Local Notation byte := (current_byte proj sub_key k).
Implicit Types (m : mem A).
Context (xs : list A) (f : nat) (m0 : mem A).
Local Notation n := (length xs).
Local Notation cnt := (cnt byte xs).
Local Notation start := (start byte xs).
Local Notation placed := (placed 256 byte xs).
Local Notation blocked := (blocked byte xs).
Local Notation slack := (slack 256 byte xs).
Local Notation nonempty := (nonempty proj sub_key k xs).
Local Notation Rem := (Rem proj sub_key k xs).
Local Notation state := (state xs f m0).
Let HB : forall x, In x xs -> byte x < 256 := fun x _ => byte_lt proj sub_key k x.

Lemma nonempty_spec : forall p, nonempty p = true <-> 0 < cnt p.
Proof. intros p. unfold SkaLib.nonempty. destruct (Nat.eqb_spec (cnt p) 0); split; try discriminate; cbn; auto; lia. Qed.
Lemma empty_spec : forall p, nonempty p = false <-> cnt p = 0.
Proof. intros p. unfold SkaLib.nonempty. destruct (Nat.eqb_spec (cnt p) 0); split; try discriminate; cbn; auto; lia. Qed.
Lemma rem_nth : forall j b, nth_error Rem j = Some b -> b < 256 /\ 0 < cnt b /\ nonempty b = true.
Proof. intros j b H. apply nth_error_In in H. apply rem_in in H as [H1 H2]. split; auto. split; auto. now apply nonempty_spec. Qed.
Lemma rem_index : forall p, p < 256 -> 0 < cnt p -> exists j, nth_error Rem j = Some p.
Proof. intros p Hp Hc. apply In_nth_error. now apply rem_in. Qed.
Lemma rem_sorted : forall i j a b, i < j -> nth_error Rem i = Some a -> nth_error Rem j = Some b -> a < b.
Proof. intros i j a b. apply filter_seq_sorted. Qed.
Lemma rem_order : forall i j a b, nth_error Rem i = Some a -> nth_error Rem j = Some b -> a < b -> i < j.
Proof.
  intros i j a b Ha Hb H. destruct (Nat.lt_trichotomy i j) as [|[->|Hij]]; auto. { assert (a = b) by congruence. lia. }
  pose proof (rem_sorted _ _ _ _ Hij Hb Ha). lia.
Qed.
Lemma rem_pos_lt : forall j b, nth_error Rem j = Some b -> j < length Rem - 1 -> start (S b) < n.
Proof.
  intros j b Hb Hj. destruct (nth_some _ Rem (length Rem - 1)) as (z & Hz); [lia|]. pose proof (rem_sorted _ _ _ _ Hj Hb Hz). destruct (rem_nth _ _ Hz) as (H1 & H2 & _).
  pose proof (start_mono byte xs (S b) z ltac:(lia)). pose proof (start_le proj sub_key k xs (S z) ltac:(lia)). rewrite (start_S byte xs z) in *. lia.
Qed.

(** The frontiers that the offsets stand for. *)
Definition wof (o : nat -> nat) (p : nat) : nat := if nonempty p then o p else start p.

(** * american_flag_sort *)
Definition anext : list (option nat) := map (fun p => if nonempty p then Some (start (S p)) else None) (seq 0 256).
Lemma wp_rd_anext : forall p (Q : nat -> mem A -> Prop) m, p < 256 -> nonempty p = true -> Q (start (S p)) m -> wp (rd_init anext p) Q m.
Proof. intros p Q m Hp HN HQ. unfold rd_init, anext. wstep. apply wp_rd_seq; auto. rewrite HN. now apply wp_ret. Qed.

Lemma next_block_wp : forall o c m, c < length Rem - 1 ->
  wp (next_block (map o (seq 0 256)) anext Rem c) (fun r m' => m' = m /\ match r with
    | None => forall j b, c < j < length Rem - 1 -> nth_error Rem j = Some b -> o b = start (S b)
    | Some (c', o', n') => c < c' < length Rem - 1 /\ exists b, nth_error Rem c' = Some b /\ o' = o b /\ n' = start (S b) /\ o b <> start (S b) /\
        forall j b, c < j < c' -> nth_error Rem j = Some b -> o b = start (S b)
    end) m.
Proof.
  intros o c m Hc. unfold next_block.
  apply wp_loop' with (I := fun c' m' => m' = m /\ c <= c' < length Rem - 1 /\ forall j b, c < j <= c' -> nth_error Rem j = Some b -> o b = start (S b)) (mu := fun c' => length Rem - c'); [|lia|].
  - cj; auto; try lia.
  - intros c' m' (-> & Hc' & HF). destruct (Nat.eqb_spec (S c') (length Rem - 1)) as [E|E].
    + apply wp_ret. split; auto. intros j b Hj. apply HF. lia.
    + destruct (nth_some _ Rem (S c')) as (b & Hb); [lia|]. destruct (rem_nth _ _ Hb) as (Hb1 & Hb2 & Hb3).
      wstep. eapply wp_rd; [exact Hb|]. wstep. apply wp_rd_seq; auto. wstep. apply wp_rd_anext; auto.
      destruct (Nat.eqb_spec (o b) (start (S b))) as [E1|E1]; apply wp_ret.
      * split; [|lia]. split; auto. split; [lia|]. intros j z Hj Hz. destruct (Nat.eq_dec j (S c')) as [->|]; [congruence|]. apply (HF j); auto. lia.
      * split; auto. split; [lia|]. exists b. cj; auto. intros j z Hj. apply HF. lia.
Qed.

Definition W (o : nat -> nat) (b i p : nat) : nat := if p <? b then start (S p) else if p =? b then i else wof o p.

Lemma placed_start : placed xs start.
Proof. intros p Hp. split; [rewrite start_S; lia|]. intros i x Hi. lia. Qed.

Lemma state_init : forall m, m = m0 -> seg m f xs -> state xs m.
Proof. intros m -> HS. split; auto. split; auto. apply only_refl. Qed.

(** All but the last block are complete. *)
Lemma american_end : forall ys o b c i, Permutation xs ys -> nth_error Rem c = Some b -> i = start (S b) -> placed ys (W o b i) ->
  (forall j z, c < j < length Rem - 1 -> nth_error Rem j = Some z -> o z = start (S z)) -> blocked ys.
Proof.
  intros ys o b c i HP Hb -> HW HF. pose proof (nth_lt _ _ _ Hb) as Hc. destruct (nth_some _ Rem (length Rem - 1)) as (z & Hz); [lia|].
  eapply (placed_blocked 256 byte xs HB ys HP (W o b (start (S b))) z); auto. intros p Hp Hpz. unfold W. destruct (Nat.ltb_spec p b); auto. destruct (Nat.eqb_spec p b) as [->|]; auto.
  unfold wof. destruct (nonempty p) eqn:EN.
  - apply nonempty_spec in EN. destruct (rem_index p Hp EN) as (j & Hj). apply (HF j); auto. split.
    + apply (rem_order _ _ _ _ Hb Hj). lia.
    + pose proof (nth_lt _ _ _ Hj). destruct (Nat.eq_dec j (length Rem - 1)) as [->|]; [congruence|lia].
  - apply empty_spec in EN. symmetry. now apply empty_start.
Qed.

Lemma american_swaps_wp : forall m, m = m0 -> seg m f xs ->
  wp (american_swaps proj sub_key k f (f + n) (map (fun p => if nonempty p then start p else cnt p) (seq 0 256)) anext Rem) (fun _ m' => exists ys, state ys m' /\ blocked ys) m.
Proof.
  intros m Em HS. unfold american_swaps. pose proof (state_init m Em HS) as HS0. destruct (Nat.leb_spec (length Rem) 1) as [HL|HL].
  { apply wp_ret. exists xs. split; auto. destruct Rem as [|b r] eqn:ER.
    - intros i x Hx. assert (H : In (byte x) []); [|destruct H]. rewrite <- ER. apply rem_in. split; [apply byte_lt|]. apply (cnt_pos 256 byte xs HB). eapply nth_error_In; eauto.
    - apply (placed_blocked 256 byte xs HB xs (Permutation_refl _) start b placed_start). intros p Hp Hpb.
      assert (cnt p = 0) as E0; [|symmetry; now apply empty_start]. destruct (Nat.eq_dec (cnt p) 0) as [|H0]; auto. exfalso.
      assert (In p (b :: r)) as HI. { rewrite <- ER. apply rem_in. lia. } destruct r; [|simpl in HL; lia]. destruct HI as [->|[]]; auto. }
  destruct (nth_some _ Rem 0) as (b0 & Hb0); [lia|]. destruct (rem_nth _ _ Hb0) as (B1 & B2 & B3).
  wstep. eapply wp_rd; [exact Hb0|]. wstep. apply wp_rd_anext; auto.
  assert (Hbefore : forall p, p < b0 -> cnt p = 0).
  { intros p Hp. destruct (Nat.eq_dec (cnt p) 0) as [|H0]; auto. destruct (rem_index p) as (j & Hj); [lia|lia|]. pose proof (rem_order _ _ _ _ Hj Hb0 Hp). lia. }
  assert (Hs0 : start b0 = 0). { clear - Hbefore. induction b0 as [|p IH]; auto. rewrite start_S, (Hbefore p), IH by auto. auto. }
  set (o0 := fun p => if nonempty p then start p else cnt p).
  assert (HW0 : forall p, p < 256 -> W o0 b0 0 p = start p).
  { intros p Hp. unfold W. destruct (Nat.ltb_spec p b0). { apply empty_start. auto. } destruct (Nat.eqb_spec p b0) as [->|]; auto. unfold wof, o0. destruct (nonempty p); auto. }
  apply wp_loop_k with (k := slack (W o0 b0 0)) (I := fun q '(it, c, be, off) m => exists ys o i b, state ys m /\ off = map o (seq 0 256) /\ it = f + i /\ nth_error Rem c = Some b /\
    c < length Rem - 1 /\ be = f + start (S b) /\ start b <= i < start (S b) /\ placed ys (W o b i) /\ slack (W o b i) = q).
  - exists xs, o0, 0, b0. split; auto. split; [reflexivity|]. cj; auto; try lia. { rewrite start_S. lia. } eapply placed_ext; [apply placed_start|exact HW0].
  - assert (slack (W o0 b0 0) <= n); [|lia]. eapply slack_init; [exact HB|]. eapply placed_ext; [apply placed_start|exact HW0].
  - clear m Em HS HS0. intros q [[[it c] be] off] m (ys & o & i & b & HS & -> & -> & Hb & Hc & -> & Hi & HW & HK).
    destruct (rem_nth _ _ Hb) as (Hb1 & Hb2 & Hb3). pose proof (rem_pos_lt _ _ Hb Hc) as Hbn.
    assert (HP : Permutation xs ys) by (destruct HS as (_ & HP & _); exact HP).
    assert (Hly : length ys = n) by (eapply state_len; eauto).
    destruct (nth_some _ ys i) as (x & Hx); [lia|]. wstep. eapply state_get; eauto. wstep. eapply wp_rd; [exact Hb|].
    pose proof (byte_lt proj sub_key k x) as Hby.
    assert (HWb : W o b i b = i). { unfold W. destruct (Nat.ltb_spec b b); [lia|]. now rewrite Nat.eqb_refl. }
    destruct (Nat.eqb_spec (byte x) b) as [E|E].
    + assert (HW' : placed ys (W o b (S i))).
      { eapply placed_ext; [eapply (placed_stay 256 byte xs HB ys (W o b i) x); auto; rewrite E, HWb; auto|].
        intros p Hp. rewrite E. unfold bump. rewrite HWb. unfold W. destruct (Nat.eqb_spec p b) as [->|]; auto. destruct (Nat.ltb_spec b b); [lia|auto]. }
      assert (HK' : slack (W o b (S i)) < q).
      { rewrite <- HK. rewrite (slack_ext proj sub_key k xs (bump (W o b i) b) (W o b (S i))).
        - apply slack_bump; auto. rewrite HWb. lia.
        - intros p Hp. unfold bump. rewrite HWb. unfold W. destruct (Nat.eqb_spec p b) as [->|]; auto. destruct (Nat.ltb_spec b b); [lia|auto]. }
      destruct (Nat.eqb_spec (S (f + i)) (f + n - 1)) as [E1|E1].
      { apply wp_ret. exists ys. split; auto. apply (american_end ys o b c (S i)); auto; [lia|]. intros j z Hj Hz.
        exfalso. pose proof (rem_sorted c j b z ltac:(lia) Hb Hz). destruct (rem_nth _ _ Hz) as (Hz1 & Hz2 & _). pose proof (rem_pos_lt _ _ Hz ltac:(lia)).
        pose proof (start_mono byte xs (S b) z ltac:(lia)). rewrite (start_S byte xs z) in *. lia. }
      destruct (Nat.eqb_spec (S (f + i)) (f + start (S b))) as [E2|E2].
      * wstep. eapply wp_mono; [now apply next_block_wp|]. intros r m' [-> Hr]. destruct r as [[[c' o'] n']|].
        -- destruct Hr as (Hc' & b' & Hb' & -> & -> & Hne & HF). apply wp_ret. destruct (rem_nth _ _ Hb') as (D1 & D2 & D3).
           pose proof (rem_sorted c c' b b' ltac:(lia) Hb Hb') as Hbb.
           assert (HE : forall p, p < 256 -> W o b' (o b') p = W o b (S i) p).
           { intros p Hp. unfold W. destruct (Nat.ltb_spec p b'), (Nat.ltb_spec p b); try lia; auto.
             - destruct (Nat.eqb_spec p b) as [->|]; [lia|]. unfold wof. destruct (nonempty p) eqn:EN; [|apply empty_start; now apply empty_spec].
               apply nonempty_spec in EN. destruct (rem_index p Hp EN) as (j & Hj). symmetry. apply (HF j); auto. split; [apply (rem_order _ _ _ _ Hb Hj); lia|apply (rem_order _ _ _ _ Hj Hb'); lia].
             - destruct (Nat.eqb_spec p b); [lia|]. destruct (Nat.eqb_spec p b') as [->|]; auto. unfold wof. now rewrite D3. }
           exists (slack (W o b (S i))). split; auto. exists ys, o, (o b'), b'. split; [exact HS|]. split; [reflexivity|]. split; [reflexivity|]. split; [exact Hb'|]. split; [lia|]. split; [reflexivity|]. split; [|split].
           ++ destruct (HW' b' D1) as [H _]. rewrite <- HE in H by auto. unfold W in H. destruct (Nat.ltb_spec b' b'); [lia|]. rewrite Nat.eqb_refl in H. lia.
           ++ eapply placed_ext; [exact HW'|exact HE].
           ++ now apply slack_ext.
        -- apply wp_ret. exists ys. split; auto. apply (american_end ys o b c (S i)); auto. lia.
      * apply wp_ret. exists (slack (W o b (S i))). split; auto. exists ys, o, (S i), b. split; [exact HS|]. split; [reflexivity|]. cj; auto; lia.
    + (* the element goes to its block *)
      assert (Hout : forall r, r < 256 -> ~ (start r <= i < W o b i r)).
      { intros r Hr H. assert (r = b) as ->. { apply (region_uniq byte xs i); auto. destruct (HW r Hr) as [H1 _]. lia. } rewrite HWb in H. lia. }
      assert (Hgt : b < byte x).
      { destruct (Nat.lt_ge_cases b (byte x)) as [|Hle]; auto. exfalso. pose proof (placed_room 256 byte xs HB ys HP _ _ _ HW Hx (Hout _ Hby)) as H.
        unfold W in H. destruct (Nat.ltb_spec (byte x) b); lia. }
      assert (HEn : nonempty (byte x) = true). { apply nonempty_spec. apply (cnt_pos 256 byte xs HB). eapply Permutation_in; [symmetry; exact HP|]. eapply nth_error_In; eauto. }
      assert (HWx : W o b i (byte x) = o (byte x)). { unfold W. destruct (Nat.ltb_spec (byte x) b); [lia|]. destruct (Nat.eqb_spec (byte x) b); [lia|]. unfold wof. now rewrite HEn. }
      pose proof (placed_room 256 byte xs HB ys HP _ _ _ HW Hx (Hout _ Hby)) as HR. pose proof (start_le proj sub_key k xs (S (byte x)) Hby) as HSL.
      destruct (nth_some _ ys (W o b i (byte x))) as (y & Hy); [lia|].
      wstep. apply wp_rd_seq; auto. wstep. apply wp_wr_seq; auto. wstep. rewrite <- HWx. eapply state_swap; eauto. intros m' HS'. apply wp_ret.
      set (o' := fun j => if j =? byte x then S (W o b i (byte x)) else o j).
      assert (HE : forall p, p < 256 -> W o' b i p = bump (W o b i) (byte x) p).
      { intros p Hp. unfold bump. destruct (Nat.eqb_spec p (byte x)) as [->|Hne].
        - unfold W at 1. destruct (Nat.ltb_spec (byte x) b); [lia|]. destruct (Nat.eqb_spec (byte x) b); [lia|]. unfold wof. rewrite HEn. unfold o'. now rewrite Nat.eqb_refl.
        - unfold W, wof, o'. destruct (Nat.eqb_spec p (byte x)); [lia|]. reflexivity. }
      exists (slack (W o' b i)). split. { rewrite (slack_ext _ _ _ _ _ _ HE). rewrite <- HK. apply slack_bump; auto. }
      eexists _, o', i, b. split; [exact HS'|]. split; [reflexivity|]. split; [reflexivity|]. cj; auto; try lia. eapply placed_ext; [|exact HE]. eapply placed_swap; eauto.
Qed.
End Swaps.
