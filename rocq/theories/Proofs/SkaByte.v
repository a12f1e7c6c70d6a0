(** ska_sort: the swaps of ska_byte_sort. *)
From Coq Require Import List Arith NArith Lia Permutation Bool.
From Verif Require Import Spec.Order Lang.Mem Spec.Sorts Proofs.Wp Proofs.OrderLib Model.Indirect Proofs.Indirect Proofs.Search Proofs.Regions Proofs.Bins Model.Ska Proofs.SkaLib Proofs.SkaSwaps.
Import ListNotations.
Local Arguments nth_error : simpl never.
Local Arguments upd : simpl never.
Local Arguments Nat.leb : simpl never.
Local Arguments Nat.ltb : simpl never.
Local Arguments Nat.eqb : simpl never.
Local Arguments Nat.sub : simpl never.
Local Arguments loop : simpl never.
Local Opaque seq.

(** * A partition of an array, with a predicate that has a state *)
Section PartitionArray.
Context {A X S : Type} (pred : X -> S -> M A (bool * S)).
(** [I k s m]: [k] bounds the work left; [fin x s]: there is no work left for [x]; [D]: the elements of the array. *)
Variables (I : nat -> S -> mem A -> Prop) (fin : X -> S -> Prop) (D : X -> Prop).
Hypothesis HP : forall k s m x, I k s m -> D x ->
  wp (pred x s) (fun '(b, s') m' => exists k', k' <= k /\ I k' s' m' /\ (forall y, D y -> fin y s -> fin y s') /\ if b : bool then k' < k else fin x s') m.

Lemma scan_forward_wp : forall v f l k s m, f <= l -> l <= length v -> (forall x, In x v -> D x) -> I k s m ->
  wp (scan_forward pred v f l s) (fun '(r, done, s') m' => f <= r <= l /\ exists k', k' <= k /\ I k' s' m' /\ (forall y, D y -> fin y s -> fin y s') /\ (f < r -> k' < k) /\
    if done : bool then r = l else r < l /\ exists x, nth_error v r = Some x /\ fin x s') m.
Proof.
  intros v f l k s m Hfl Hl HD HI. unfold scan_forward.
  apply wp_loop' with (I := fun '(r, s') m' => f <= r <= l /\ exists k', k' <= k /\ I k' s' m' /\ (forall y, D y -> fin y s -> fin y s') /\ (f < r -> k' < k)) (mu := fun '(r, _) => l - r); [|lia|].
  - split; [lia|]. exists k. cj; auto; lia.
  - intros [r s'] m' (Hr & k' & Hk & HI' & HF & HS). destruct (Nat.eqb_spec r l) as [E|E].
    + apply wp_ret. split; [lia|]. exists k'. cj; auto.
    + destruct (nth_some _ v r) as (x & Hx); [lia|]. assert (D x) by (apply HD; eapply nth_error_In; eauto). wstep. eapply wp_rd; [exact Hx|]. wstep. eapply wp_mono; [eapply HP; eauto|].
      intros [b s2] m2 (k2 & Hk2 & HI2 & HF2 & Hb). destruct b; apply wp_ret.
      * split; [|lia]. split; [lia|]. exists k2. cj; auto; lia.
      * split; [lia|]. exists k2. cj; auto; try lia. eauto.
Qed.

Lemma scan_backward_wp : forall v f l k s m, f < l -> l <= length v -> (forall x, In x v -> D x) -> I k s m ->
  wp (scan_backward pred v f l s) (fun '(r, done, s') m' => f <= r < l /\ exists k', k' <= k /\ I k' s' m' /\ (forall y, D y -> fin y s -> fin y s') /\
    (forall j x, r < j < l -> nth_error v j = Some x -> fin x s') /\ if done : bool then r = f else f < r /\ k' < k) m.
Proof.
  intros v f l k s m Hfl Hl HD HI. unfold scan_backward.
  apply wp_loop' with (I := fun '(r, s') m' => f < r <= l /\ exists k', k' <= k /\ I k' s' m' /\ (forall y, D y -> fin y s -> fin y s') /\ (forall j x, r <= j < l -> nth_error v j = Some x -> fin x s'))
    (mu := fun '(r, _) => r - f); [|lia|].
  - split; [lia|]. exists k. cj; auto. lia.
  - intros [r s'] m' (Hr & k' & Hk & HI' & HF & HS). destruct (Nat.eqb_spec f (r - 1)) as [E|E].
    + apply wp_ret. split; [lia|]. exists k'. cj; auto; try lia. intros j x Hj. apply HS. lia.
    + destruct (nth_some _ v (r - 1)) as (x & Hx); [lia|]. assert (D x) by (apply HD; eapply nth_error_In; eauto). wstep. eapply wp_rd; [exact Hx|]. wstep. eapply wp_mono; [eapply HP; eauto|].
      intros [b s2] m2 (k2 & Hk2 & HI2 & HF2 & Hb). destruct b; apply wp_ret.
      * split; [lia|]. exists k2. cj; auto; try lia. intros j y Hj Hy. apply HF2; [apply HD; eapply nth_error_In; eauto|]. apply (HS j); auto. lia.
      * split; [|lia]. split; [lia|]. exists k2. cj; auto; try lia. intros j y Hj Hy. destruct (Nat.eq_dec j (r - 1)) as [->|]; [congruence|]. apply HF2; [apply HD; eapply nth_error_In; eauto|]. apply (HS j); auto. lia.
Qed.

Lemma partition_array_wp : forall v f l k s m, f <= l -> l <= length v -> (forall x, In x v -> D x) -> (forall j x, l <= j -> nth_error v j = Some x -> fin x s) -> I k s m ->
  wp (partition_array pred v f l s) (fun '(r, v', s') m' => f <= r <= l /\ Permutation v v' /\ exists k', k' <= k /\ I k' s' m' /\ (f < r -> k' < k) /\
    forall j x, r <= j -> nth_error v' j = Some x -> fin x s') m.
Proof.
  intros v f l k s m Hfl Hl HD HA HI. unfold partition_array.
  apply wp_loop' with (I := fun '(f', l', v', s') m' => f <= f' <= l' /\ l' <= l /\ Permutation v v' /\ exists k', k' <= k /\ I k' s' m' /\ (f < f' -> k' < k) /\
    forall j x, l' <= j -> nth_error v' j = Some x -> fin x s') (mu := fun '(f', l', _, _) => l' - f'); [|lia|].
  - cj; auto. exists k. cj; auto. lia.
  - intros [[[f' l'] v'] s'] m' (Hf & Hl' & HPe & k' & Hk & HI' & HS & HFi).
    assert (HLv : length v' = length v) by now rewrite (Permutation_length HPe). assert (HD' : forall x, In x v' -> D x). { intros x Hx. apply HD. eapply Permutation_in; [symmetry; exact HPe|auto]. }
    wstep. eapply wp_mono; [eapply (scan_forward_wp v' f' l'); eauto; lia|]. intros [[r d] s2] m2 (Hr & k2 & Hk2 & HI2 & HF2 & HS2 & Hd). destruct d.
    + apply wp_ret. subst r. split; [lia|]. split; auto. exists k2. cj; auto; try lia. intros j x Hj Hx. apply HF2; [apply HD'; eapply nth_error_In; eauto|]. eauto.
    + destruct Hd as (Hrl & x & Hx & Hfx). wstep. eapply wp_mono; [eapply (scan_backward_wp v' r l'); eauto; lia|]. intros [[r3 d] s3] m3 (Hr3 & k3 & Hk3 & HI3 & HF3 & HS3 & Hd3).
      assert (Hrest : forall j y, r3 < j -> nth_error v' j = Some y -> fin y s3).
      { intros j y Hj Hy. assert (D y) by (apply HD'; eapply nth_error_In; eauto). destruct (Nat.lt_ge_cases j l'); [apply (HS3 j); auto|]. apply HF3; auto. apply HF2; auto. eapply HFi; eauto. }
      assert (Hx3 : fin x s3). { apply HF3; auto. apply HD'. eapply nth_error_In; eauto. }
      destruct d.
      * apply wp_ret. subst r3. split; [lia|]. split; auto. exists k3. cj; auto; try lia. intros j y Hj Hy. destruct (Nat.eq_dec j r) as [->|]; [congruence|]. apply (Hrest j); auto. lia.
      * destruct (nth_some _ v' r3) as (y & Hy); [lia|]. wstep. eapply wp_rd; [exact Hx|]. wstep. eapply wp_rd; [exact Hy|]. wstep. apply wp_wr; [lia|]. wstep. apply wp_wr; [rewrite upd_length; lia|]. apply wp_ret.
        split; [|lia]. split; [lia|]. split; [lia|]. split. { rewrite HPe. symmetry. now apply swap_perm. }
        exists k3. cj; auto; try lia. intros j z Hj Hz. destruct (Nat.eq_dec r3 j) as [<-|].
        -- rewrite nth_upd_eq in Hz by (rewrite upd_length; lia). congruence.
        -- rewrite !nth_upd_ne in Hz by lia. apply (Hrest j); auto. lia.
Qed.
End PartitionArray.

Section Swaps.
Context {A T : Type} (proj : A -> T) (sub_key : T -> N) (k : nat).
Local Notation byte := (current_byte proj sub_key k).
Implicit Types (m : mem A).
Context (xs : list A) (f : nat) (m0 : mem A).
Local Notation n := (length xs).
Local Notation cnt := (cnt byte xs).
Local Notation start := (start byte xs).
Local Notation placed := (placed 256 byte xs).
Local Notation blocked := (blocked byte xs).
Local Notation slack := (slack 256 byte xs).
Local Notation nonempty := (nonempty proj sub_key k xs).
Local Notation Rem := (Rem proj sub_key k xs).
Local Notation state := (state xs f m0).
Local Notation wof := (wof proj sub_key k xs).
Let HB : forall x, In x xs -> byte x < 256 := fun x _ => byte_lt proj sub_key k x.

Definition snext : list (option nat) := map (fun p => Some (start (S p))) (seq 0 256).
Lemma wp_rd_snext : forall p (Q : nat -> mem A -> Prop) m, p < 256 -> Q (start (S p)) m -> wp (rd_init snext p) Q m.
Proof. intros p Q m Hp HQ. unfold rd_init, snext. wstep. apply wp_rd_seq; auto. Qed.

(** The state of the passes. *)
Definition pass (q : nat) (off : list nat) m : Prop := exists ys o, state ys m /\ off = map o (seq 0 256) /\ placed ys (wof o) /\ slack (wof o) = q.
Definition fin (p : nat) (off : list nat) : Prop := nth_error off p = Some (start (S p)).
Lemma fin_map : forall p o, p < 256 -> fin p (map o (seq 0 256)) <-> o p = start (S p).
Proof. intros p o Hp. unfold fin. rewrite (nth_map_seq _ o 256 p) by auto. split; [congruence|intros ->; auto]. Qed.

Lemma swap_loop_wp : forall p ys o m, In p Rem -> state ys m -> placed ys (wof o) ->
  wp (swap_loop proj sub_key k f (f + o p) (start (S p) - o p) (map o (seq 0 256)))
    (fun off m' => exists ys' o', state ys' m' /\ off = map o' (seq 0 256) /\ placed ys' (wof o') /\ (forall r, r < 256 -> o r <= o' r) /\
       slack (wof o') <= slack (wof o) /\ (o p < start (S p) -> slack (wof o') < slack (wof o))) m.
Proof.
  intros p ys o m Hp HS HW. apply rem_in in Hp as [Hp Hcp]. assert (Ep : nonempty p = true) by now apply nonempty_spec.
  unfold swap_loop.
  apply wp_loop' with (I := fun '(it, c, off) m' => exists ys' o' i, it = f + i /\ i + c = start (S p) /\ wof o' p <= i /\ state ys' m' /\ off = map o' (seq 0 256) /\ placed ys' (wof o') /\
    (forall r, r < 256 -> o r <= o' r) /\ slack (wof o') <= slack (wof o) /\ (o p < i -> slack (wof o') < slack (wof o))) (mu := fun '(_, c, _) => c); [|lia|].
  - destruct (HW p Hp) as [H _]. unfold SkaSwaps.wof in H at 1 2. rewrite Ep in H. exists ys, o, (o p). split; [reflexivity|]. split; [lia|]. split. { unfold SkaSwaps.wof. rewrite Ep. auto. }
    split; [exact HS|]. split; [reflexivity|]. cj; auto. lia.
  - clear m HS. intros [[it c] off] m (ys' & o' & i & -> & Hi & Hpi & HS & -> & HW' & HM & HK1 & HK2). destruct (Nat.eqb_spec c 0) as [->|E].
    + apply wp_ret. exists ys', o'. split; [exact HS|]. split; [reflexivity|]. cj; auto. intros; apply HK2. lia.
    + assert (HP : Permutation xs ys') by (destruct HS as (_ & HP & _); exact HP).
      assert (Hly : length ys' = n) by (eapply state_len; eauto).
      pose proof (start_le proj sub_key k xs (S p) Hp) as Hsp. destruct (nth_some _ ys' i) as (x & Hx); [lia|].
      pose proof (byte_lt proj sub_key k x) as Hby.
      assert (Hout : forall r, r < 256 -> ~ (start r <= i < wof o' r)).
      { intros r Hr H. assert (r = p) as ->; [|lia]. destruct (HW' p Hp) as [H2 _]. apply (region_uniq byte xs i); [destruct (HW' r Hr) as [H1 _]; lia|lia]. }
      assert (HEn : nonempty (byte x) = true). { apply nonempty_spec. apply (cnt_pos 256 byte xs HB). eapply Permutation_in; [symmetry; exact HP|]. eapply nth_error_In; eauto. }
      assert (HWx : wof o' (byte x) = o' (byte x)). { unfold SkaSwaps.wof. now rewrite HEn. }
      pose proof (placed_room 256 byte xs HB ys' HP _ _ _ HW' Hx (Hout _ Hby)) as HR. pose proof (start_le proj sub_key k xs (S (byte x)) Hby) as HSL.
      destruct (nth_some _ ys' (wof o' (byte x))) as (y & Hy); [lia|].
      wstep. eapply state_get; eauto. wstep. apply wp_rd_seq; auto. wstep. apply wp_wr_seq; auto. wstep. rewrite <- HWx. eapply state_swap; eauto. intros m' HS'. apply wp_ret.
      set (o2 := fun j => if j =? byte x then S (wof o' (byte x)) else o' j).
      assert (HE : forall r, r < 256 -> wof o2 r = bump (wof o') (byte x) r).
      { intros r Hr. unfold bump. destruct (Nat.eqb_spec r (byte x)) as [->|Hne].
        - unfold SkaSwaps.wof at 1. rewrite HEn. unfold o2. now rewrite Nat.eqb_refl.
        - unfold SkaSwaps.wof, o2. destruct (Nat.eqb_spec r (byte x)); [lia|]. reflexivity. }
      assert (HSL2 : slack (wof o2) < slack (wof o')). { rewrite (slack_ext _ _ _ _ _ _ HE). apply slack_bump; auto. }
      split; [|lia]. eexists _, o2, (S i). split; [lia|]. split; [lia|]. split. { rewrite HE by auto. unfold bump. destruct (Nat.eqb_spec p (byte x)) as [<-|]; lia. }
      split; [exact HS'|]. split; [reflexivity|]. split. { eapply placed_ext; [|exact HE]. eapply placed_swap; eauto. }
      split. { intros r Hr. specialize (HM r Hr). unfold o2. destruct (Nat.eqb_spec r (byte x)) as [->|]; lia. } split; lia.
Qed.

Lemma ska_pass_wp : forall q off m p, pass q off m -> In p Rem ->
  wp (ska_pass proj sub_key k f snext p off) (fun '(b, off') m' => exists q', q' <= q /\ pass q' off' m' /\ (forall r, In r Rem -> fin r off -> fin r off') /\
    if b : bool then q' < q else fin p off') m.
Proof.
  intros q off m p (ys & o & HS & -> & HW & HK) Hp. pose proof Hp as Hp'. apply rem_in in Hp' as [Hp1 Hp2]. assert (Ep : nonempty p = true) by now apply nonempty_spec. unfold ska_pass.
  wstep. apply wp_rd_seq; auto. wstep. apply wp_rd_snext; auto. destruct (Nat.eqb_spec (o p) (start (S p))) as [E|E].
  - apply wp_ret. exists q. split; [lia|]. split. { exists ys, o. split; [exact HS|]. split; [reflexivity|]. auto. } split; auto. now apply fin_map.
  - assert (Hop : o p < start (S p)). { destruct (HW p Hp1) as [H _]. unfold SkaSwaps.wof in H. rewrite Ep in H. lia. }
    wstep. eapply wp_mono; [eapply swap_loop_wp; eauto|]. intros off' m' (ys' & o' & HS' & -> & HW' & HM & HK1 & HK2). specialize (HK2 Hop). wstep. apply wp_rd_seq; auto. apply wp_ret.
    exists (slack (wof o')). split; [lia|]. split. { exists ys', o'. split; [exact HS'|]. split; [reflexivity|]. auto. } split.
    + intros r Hr HF. apply rem_in in Hr as [Hr1 Hr2]. apply fin_map in HF; auto. apply fin_map; auto. specialize (HM r Hr1). destruct (HW' r Hr1) as [H _]. unfold SkaSwaps.wof in H.
      assert (nonempty r = true) as Er by now apply nonempty_spec. rewrite Er in H. lia.
    + destruct (Nat.eqb_spec (o' p) (start (S p))) as [E'|E']; cbn [negb]; [|lia]. now apply fin_map.
Qed.

Lemma ska_swaps_wp : forall m, m = m0 -> seg m f xs ->
  wp (ska_swaps proj sub_key k f (f + n) (map (fun p => if nonempty p then start p else cnt p) (seq 0 256)) snext Rem)
    (fun r m' => Permutation Rem r /\ exists ys, state ys m' /\ blocked ys) m.
Proof.
  intros m Em HS. unfold ska_swaps. pose proof (state_init xs f m0 m Em HS) as HS0.
  set (o0 := fun p => if nonempty p then start p else cnt p).
  assert (HW0 : forall p, p < 256 -> wof o0 p = start p). { intros p Hp. unfold SkaSwaps.wof, o0. destruct (nonempty p); auto. }
  assert (HPl : placed xs (wof o0)) by (eapply placed_ext; [apply placed_start|exact HW0]).
  apply wp_loop_k with (k := S (slack (wof o0))) (I := fun q '(l, r, off) m => l <= length r /\ Permutation Rem r /\ (forall j p, l <= j -> nth_error r j = Some p -> fin p off) /\
    exists q', pass q' off m /\ (if l <=? 1 then 0 else S q') <= q).
  - split; auto. split; auto. split. { intros j p Hj Hx. apply nth_lt in Hx. lia. } exists (slack (wof o0)). split. { exists xs, o0. split; [exact HS0|]. split; [reflexivity|]. auto. } destruct (length Rem <=? 1); lia.
  - pose proof (slack_init 256 byte xs HB xs _ HPl). lia.
  - clear m Em HS HS0. intros q [[l r] off] m (Hl & HP & HF & q' & HPs & Hq). destruct (Nat.ltb_spec 1 l) as [H1|H1].
    + destruct (Nat.leb_spec l 1); [lia|]. wstep. eapply wp_mono.
      { eapply (partition_array_wp _ pass fin (fun p => In p Rem)) with (k := q'); eauto; try lia.
        - intros q2 off2 m2 p HI HD. now apply ska_pass_wp.
        - intros p Hp. eapply Permutation_in; [symmetry; exact HP|auto]. }
      intros [[l' r'] off'] m' (Hl' & HP' & q2 & Hq2 & HI2 & Hlt & HF'). apply wp_ret. exists (if l' <=? 1 then 0 else S q2). split. { destruct (Nat.leb_spec l' 1); [lia|]. specialize (Hlt ltac:(lia)). lia. }
      split. { rewrite <- (Permutation_length HP'). lia. } split; [now rewrite HP|]. split; [exact HF'|]. exists q2. split; auto.
    + apply wp_ret. split; auto. destruct HPs as (ys & o & HS & -> & HW & _). exists ys. split; auto. assert (HPy : Permutation xs ys) by (destruct HS as (_ & HPy & _); exact HPy).
      apply (placed_blocked 256 byte xs HB ys HPy (wof o) (nth 0 r 0) HW). intros p Hp Hne. unfold SkaSwaps.wof. destruct (nonempty p) eqn:Ep.
      * apply nonempty_spec in Ep. assert (In p r) as Hin. { eapply Permutation_in; [exact HP|]. now apply rem_in. } apply In_nth_error in Hin as (j & Hj).
        assert (Hj0 : j <> 0). { intros ->. apply Hne. symmetry. now apply nth_error_nth. }
        apply (fin_map p o Hp). apply (HF j); auto. lia.
      * apply empty_spec in Ep. symmetry. now apply empty_start.
Qed.
End Swaps.
