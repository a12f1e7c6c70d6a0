(** wiki_sort: the networks that sort the first groups. *)
From Coq Require Import List Arith Lia Permutation Bool.
From Verif Require Import Spec.Order Lang.Mem Spec.Sorts Proofs.Wp Proofs.OrderLib Proofs.NetLib Proofs.Search Proofs.HalfMerge Proofs.Regions Proofs.SpinMerge Model.Wiki Proofs.WikiFind Proofs.WikiMerge.
Import ListNotations.
Local Arguments nth_error : simpl never.
Local Arguments upd : simpl never.
Local Arguments Nat.leb : simpl never.
Local Arguments Nat.ltb : simpl never.

(** * Every input of zeros and ones *)
Definition bstep (l : list bool) (p : nat * nat) : list bool :=
  let '(a, b) := p in let x := nth a l false in let y := nth b l false in upd b (x || y) (upd a (x && y) l).
Fixpoint all_inputs (n : nat) : list (list bool) := match n with 0 => [[]] | S n => map (cons false) (all_inputs n) ++ map (cons true) (all_inputs n) end.
Fixpoint ones (l : list bool) : bool := match l with [] => true | b :: l => b && ones l end.
Fixpoint bsorted (l : list bool) : bool := match l with [] => true | true :: l => ones l | false :: l => bsorted l end.
Definition net_check (n : nat) : bool :=
  forallb (fun '(a, b) => (a <? b) && (b <? n)) (net n) && forallb (fun l => bsorted (fold_left bstep (net n) l)) (all_inputs n).

Lemma all_inputs_spec : forall n l, length l = n -> In l (all_inputs n).
Proof.
  induction n as [|n IH]; intros [|b l] H; try discriminate; [now left|]. injection H as H. simpl. apply in_or_app. destruct b; [right|left]; apply in_map; auto.
Qed.
Lemma ones_spec : forall l i, ones l = true -> i < length l -> nth i l false = true.
Proof. induction l as [|b l IH]; intros [|i] H Hi; simpl in *; try lia; apply andb_prop in H as [H1 H2]; auto. apply IH; auto. lia. Qed.
Lemma bsorted_spec : forall l i j, bsorted l = true -> i < j -> j < length l -> implb (nth i l false) (nth j l false) = true.
Proof.
  induction l as [|[] l IH]; intros i j H Hij Hj; simpl in *; try lia.
  - destruct j as [|j]; [lia|]. simpl. rewrite (ones_spec l j) by (auto; lia). apply implb_true_r.
  - destruct j as [|j]; [lia|]. destruct i as [|i]; simpl; auto. apply IH; auto; lia.
Qed.
Lemma nth_upd' : forall X (l : list X) i k x d, i < length l -> nth k (upd i x l) d = if k =? i then x else nth k l d.
Proof.
  intros X l i k x d Hi. destruct (Nat.eqb_spec k i) as [->|E].
  - apply nth_error_nth. now apply nth_upd_eq.
  - destruct (nth_error l k) as [y|] eqn:Ek.
    + rewrite (nth_error_nth _ _ d Ek). apply nth_error_nth. now rewrite nth_upd_ne by auto.
    + apply nth_error_None in Ek. rewrite !nth_overflow; rewrite ?upd_length; auto.
Qed.
Lemma brun_list : forall ps n v l, valid n ps -> length l = n -> (forall k, k < n -> nth k l false = v k) -> forall k, k < n -> nth k (fold_left bstep ps l) false = brun ps v k.
Proof.
  induction ps as [|[a b] ps IH]; intros n v l HV HL HE k Hk; simpl; auto. inversion HV as [|? ? [H1 H2] HV']; subst; simpl in *.
  apply IH with (n := length l); auto. { now rewrite !upd_length. } intros i Hi. rewrite !nth_upd'; rewrite ?upd_length; try lia. unfold bcx. rewrite !HE by lia.
  destruct (Nat.eqb_spec i a); destruct (Nat.eqb_spec i b); auto; lia.
Qed.
Lemma net_check_sound : forall n, net_check n = true -> valid n (net n) /\ sorts01 n (net n).
Proof.
  intros n H. apply andb_prop in H as [HV HC].
  assert (valid n (net n)) as V. { apply Forall_forall. intros [a b] Hp. rewrite forallb_forall in HV. specialize (HV _ Hp). simpl in HV. apply andb_prop in HV as [H1 H2]. apply Nat.ltb_lt in H1, H2. split; simpl; auto. }
  split; auto. intros v i j Hij Hj. set (l := map v (seq 0 n)). assert (length l = n) as HL by (unfold l; rewrite map_length, seq_length; auto).
  assert (forall k, k < n -> nth k l false = v k) as HE. { intros k Hk. unfold l. rewrite nth_indep with (d' := v 0) by (rewrite map_length, seq_length; auto). rewrite map_nth, seq_nth; auto. }
  rewrite <- !(brun_list (net n) n v l) by (auto; lia). rewrite forallb_forall in HC. apply bsorted_spec; auto. { apply HC. now apply all_inputs_spec. }
  assert (forall ps l, length (fold_left bstep ps l) = length l) as FL. { induction ps as [|[a b] ps IH]; intros l0; simpl; auto. rewrite IH, !upd_length. auto. } rewrite FL. lia.
Qed.
Lemma nets_sort : forall n, 4 <= n <= 8 -> valid n (net n) /\ sorts01 n (net n).
Proof. intros n Hn. apply net_check_sound. assert (n = 4 \/ n = 5 \/ n = 6 \/ n = 7 \/ n = 8) as [->|[->|[->|[->| ->]]]] by lia; vm_compute; reflexivity. Qed.

(** * Elements tagged with their initial positions *)
Section Tags.
Context {A : Type} (lt : A -> A -> bool).
Hypothesis HW : strict_weak_order lt.
Definition plt (p q : A * nat) : bool := lt (fst p) (fst q) || (negb (lt (fst q) (fst p)) && (snd p <? snd q)).

Lemma plt_false : forall p q, plt p q = false <-> lt (fst p) (fst q) = false /\ (lt (fst q) (fst p) = true \/ snd q <= snd p).
Proof.
  intros p q. unfold plt. rewrite orb_false_iff, andb_false_iff, negb_false_iff, Nat.ltb_ge. tauto.
Qed.
Lemma plt_true : forall p q, plt p q = true <-> lt (fst p) (fst q) = true \/ (lt (fst q) (fst p) = false /\ snd p < snd q).
Proof. intros p q. unfold plt. rewrite orb_true_iff, andb_true_iff, negb_true_iff, Nat.ltb_lt. tauto. Qed.
Lemma swo_plt : strict_weak_order plt.
Proof.
  constructor.
  - intros x. apply plt_false. split; [apply (lt_irrefl lt HW)|right; auto].
  - intros x y z H1 H2. apply plt_true in H1, H2. apply plt_true. destruct H1 as [H1|[H1 H1']], H2 as [H2|[H2 H2']].
    + left. eapply (lt_trans lt HW); eauto.
    + left. eapply (lt_le_trans lt HW); eauto.
    + left. eapply (le_lt_trans lt HW); eauto.
    + right. split; [|lia]. eapply (le_trans lt HW); eauto.
  - intros x y z H1 H2 H3 H4. apply plt_false in H1, H2, H3, H4. destruct H1 as [H1 H1'], H2 as [H2 H2'], H3 as [H3 H3'], H4 as [H4 H4'].
    assert (lt (fst x) (fst z) = false) by exact (le_trans lt HW _ _ _ H3 H1). assert (lt (fst z) (fst x) = false) by exact (le_trans lt HW _ _ _ H2 H4).
    rewrite H1 in *. rewrite H2 in *. rewrite H3 in *. rewrite H4 in *.
    assert (snd x = snd z). { destruct H1', H2', H3', H4'; try discriminate. lia. } split; apply plt_false; split; auto; right; lia.
Qed.

Lemma sinsert_tag : forall a i l, (forall z, In z l -> i < snd z) -> map fst (sinsert plt (a, i) l) = sinsert lt a (map fst l).
Proof.
  induction l as [|z l IH]; intros H; simpl; auto. unfold plt at 1. simpl. assert (i < snd z) by (apply H; now left).
  replace (snd z <? i) with false by (symmetry; apply Nat.ltb_ge; lia). rewrite andb_false_r, orb_false_r. destruct (lt (fst z) a); simpl; auto. f_equal. apply IH. intros; apply H; now right.
Qed.
Lemma ssort_tag : forall xs k, map fst (ssort plt (combine xs (seq k (length xs)))) = ssort lt xs.
Proof.
  induction xs as [|x xs IH]; intros k; simpl; auto. rewrite sinsert_tag. { now rewrite IH. }
  intros z Hz. apply (Permutation_in _ (Permutation_sym (ssort_perm plt _))) in Hz. destruct z as [b j]. apply in_combine_r in Hz. apply in_seq in Hz. simpl. lia.
Qed.

Lemma filter_perm : forall X (p : X -> bool) l l', Permutation l l' -> Permutation (filter p l) (filter p l').
Proof. intros X p l l' H. induction H; simpl; auto. { now destruct (p x); auto. } { destruct (p x), (p y); auto. constructor. } now rewrite IHPermutation1. Qed.
Lemma sorted_tag : forall zs zs', NoDup (map snd zs) -> Permutation zs zs' -> sorted plt zs' -> zs' = ssort plt zs.
Proof.
  intros zs zs' HN HP HS. apply stable_is_ssort; auto using swo_plt. intros p. pose proof (filter_perm _ (equivalent plt p) _ _ HP) as HF.
  assert (length (filter (equivalent plt p) zs) <= 1) as H1.
  { clear HP HF. induction zs as [|z zs IH]; simpl; auto. simpl in HN. apply NoDup_cons_iff in HN as [HN1 HN2]. specialize (IH HN2).
    destruct (equivalent plt p z) eqn:E; auto. simpl. assert (filter (equivalent plt p) zs = []) as ->; auto.
    destruct (filter (equivalent plt p) zs) as [|z' t] eqn:E2; auto. exfalso. apply HN1. assert (In z' (filter (equivalent plt p) zs)) as Hz by (rewrite E2; now left).
    apply filter_In in Hz as [Hz1 Hz2]. unfold equivalent in E, Hz2. apply andb_prop in E as [E1 E1']. apply andb_prop in Hz2 as [E3 E3'].
    apply negb_true_iff in E1, E1', E3, E3'. apply plt_false in E1, E1', E3, E3'. destruct E1 as [X1 Y1], E1' as [X2 Y2], E3 as [X3 Y3], E3' as [X4 Y4].
    rewrite X1 in *. rewrite X2 in *. rewrite X3 in *. rewrite X4 in *. assert (snd z = snd z') as -> by (destruct Y1, Y2, Y3, Y4; try discriminate; lia). now apply in_map. }
  pose proof (Permutation_length HF) as HL. destruct (filter (equivalent plt p) zs) as [|a [|b t]]; simpl in *; try lia.
  - apply Permutation_nil in HF. auto.
  - apply Permutation_length_1_inv in HF. auto.
Qed.
End Tags.

Lemma run_ext : forall A (lt : A -> A -> bool) ps v w, (forall k, v k = w k) -> forall k, run lt ps v k = run lt ps w k.
Proof. intros A lt. induction ps as [|[a b] ps IH]; simpl; intros v w H k; auto. apply IH. intros i. unfold cx. now rewrite !H. Qed.
Lemma map_upd : forall X Y (f : X -> Y) i x l, map f (upd i x l) = upd i (f x) (map f l).
Proof. unfold upd. intros X Y f i x l. revert i. induction l as [|a l IH]; intros [|i]; simpl; auto. now rewrite IH. Qed.

Section Nets.
Context {A T : Type} (comp : T -> T -> bool) (proj : A -> T).
Local Notation lt := (by_proj comp proj).
Implicit Types (m : mem A).
Hypothesis HC : strict_weak_order comp.
Let HW : strict_weak_order lt := swo_by_proj _ _ comp proj HC.

Lemma swap_in_region : forall xs m f i j a b (Q : unit -> mem A -> Prop), seg m f xs -> nth_error xs i = Some a -> nth_error xs j = Some b ->
  (forall m', seg m' f (upd j a (upd i b xs)) -> only (within f (length xs)) m m' -> Q tt m') -> wp (swap (f + i) (f + j)) Q m.
Proof.
  intros xs m f i j a b Q HS Hi Hj HQ. pose proof (seg_get _ _ _ _ _ HS Hi) as Gi. pose proof (seg_get _ _ _ _ _ HS Hj) as Gj. eapply wp_swap; [exact Gi|exact Gj|]. apply HQ.
  - split. { rewrite !upd_length. now apply seg_len in HS. } intros k x. rewrite !nth_upd, !upd_length. apply nth_lt in Gi, Gj.
    destruct (Nat.eqb_spec j k) as [->|E1].
    { destruct (k <? length xs); [|discriminate]. intros [= <-]. rewrite Nat.eqb_refl. now destruct (Nat.ltb_spec (f + k) (length m)); [|lia]. }
    destruct (Nat.eqb_spec (f + j) (f + k)); [lia|]. destruct (Nat.eqb_spec i k) as [->|E2].
    { destruct (k <? length xs); [|discriminate]. intros [= <-]. rewrite Nat.eqb_refl. now destruct (Nat.ltb_spec (f + k) (length m)); [|lia]. }
    destruct (Nat.eqb_spec (f + i) (f + k)); [lia|]. apply HS.
  - split; [now rewrite !upd_length|]. apply nth_lt in Hi, Hj. intros k Hk. unfold within in Hk. rewrite !nth_upd_ne by lia. auto.
Qed.

Lemma do_swap_region : forall zs m f x y tl (Q : list nat -> mem A -> Prop), x < y < length zs -> seg m f (map fst zs) ->
  (forall zs' m', Permutation zs zs' -> (forall d k, nth k zs' d = cx (plt lt) (x, y) (fun k => nth k zs d) k) -> seg m' f (map fst zs') -> only (within f (length zs)) m m' ->
     Q (map snd zs' ++ tl) m') ->
  wp (do_swap comp proj f x y (map snd zs ++ tl)) Q m.
Proof.
  intros zs m f x y tl Q Hxy HS HQ. unfold do_swap. destruct (nth_some _ zs x) as ([a i] & Ea); [lia|]. destruct (nth_some _ zs y) as ([b j] & Eb); [lia|].
  assert (nth_error (map fst zs) x = Some a) as Fa by (rewrite nth_error_map, Ea; auto). assert (nth_error (map fst zs) y = Some b) as Fb by (rewrite nth_error_map, Eb; auto).
  assert (forall k z, nth_error zs k = Some z -> nth k (map snd zs ++ tl) 0 = snd z) as Nth.
  { intros k z Hz. apply nth_error_nth. rewrite nth_error_app1 by (rewrite map_length; now apply nth_lt in Hz). now rewrite nth_error_map, Hz. }
  rewrite (Nth _ _ Ea), (Nth _ _ Eb). simpl snd.
  assert (cx (plt lt) (x, y) = fun v k => if k =? x then (if plt lt (v y) (v x) then v y else v x) else if k =? y then (if plt lt (v y) (v x) then v x else v y) else v k) as CX by reflexivity.
  assert (NO : plt lt (b, j) (a, i) = false -> Q (map snd zs ++ tl) m).
  { intros E. apply HQ with (zs' := zs); auto; [|apply only_refl]. intros d k. rewrite CX. cbv beta. rewrite (nth_error_nth _ _ d Ea), (nth_error_nth _ _ d Eb), E.
    destruct (Nat.eqb_spec k x) as [->|]; [now apply nth_error_nth|]. destruct (Nat.eqb_spec k y) as [->|]; [now apply nth_error_nth|]. auto. }
  assert (YES : plt lt (b, j) (a, i) = true -> wp (swap (f + x) (f + y) ;; ret (upd y i (upd x j (map snd zs ++ tl)))) Q m).
  { intros E. apply wp_bind. eapply swap_in_region; [exact HS|exact Fa|exact Fb|]. intros m' S' O'. apply wp_ret. rewrite map_length in O'.
    rewrite upd_app_l by (rewrite map_length; lia). rewrite upd_app_l by (rewrite upd_length, map_length; lia).
    replace (upd y i (upd x j (map snd zs))) with (map snd (upd y (a, i) (upd x (b, j) zs))) by (now rewrite !map_upd). apply HQ; auto.
    - symmetry. now apply swap_perm.
    - intros d k. rewrite CX. cbv beta. rewrite (nth_error_nth _ _ d Ea), (nth_error_nth _ _ d Eb), E. rewrite !nth_upd'; rewrite ?upd_length; try lia.
      destruct (Nat.eqb_spec k y), (Nat.eqb_spec k x); auto; lia.
    - now rewrite !map_upd. }
  apply wp_bind. eapply comp_at_wp; [eapply seg_get; [exact HS|exact Fb]|eapply seg_get; [exact HS|exact Fa]|]. unfold plt in NO, YES. simpl fst in NO, YES. simpl snd in NO, YES.
  destruct (lt b a); simpl in NO, YES; [now apply YES|]. destruct (Nat.ltb_spec j i) as [E|E].
  - apply wp_bind. eapply comp_at_wp; [eapply seg_get; [exact HS|exact Fa]|eapply seg_get; [exact HS|exact Fb]|]. destruct (lt a b); simpl in NO, YES |- *; [apply wp_ret; auto|now apply YES].
  - rewrite andb_false_r in *. apply wp_ret. auto.
Qed.

Lemma do_swaps_region : forall ps zs m f tl (Q : unit -> mem A -> Prop), valid (length zs) ps -> seg m f (map fst zs) ->
  (forall zs' m', Permutation zs zs' -> (forall d k, nth k zs' d = run (plt lt) ps (fun k => nth k zs d) k) -> seg m' f (map fst zs') -> only (within f (length zs)) m m' ->
     Q tt m') ->
  wp (do_swaps comp proj f ps (map snd zs ++ tl)) Q m.
Proof.
  induction ps as [|[x y] ps IH]; intros zs m f tl Q HV HS HQ; simpl do_swaps.
  - apply wp_ret. apply HQ with (zs' := zs); auto. apply only_refl.
  - inversion HV as [|? ? [H1 H2] HV']; subst; simpl in H1, H2. apply wp_bind. apply do_swap_region; auto. intros zs1 m1 P1 N1 S1 O1.
    pose proof (Permutation_length P1) as L1. apply IH; auto. { now rewrite <- L1. } intros zs2 m2 P2 N2 S2 O2. apply HQ with (zs' := zs2); auto.
    + now rewrite P1.
    + intros d k. rewrite N2. simpl. apply run_ext. intros i. apply N1.
    + rewrite <- L1 in O2. eapply only_trans; eauto.
Qed.

Lemma combine_fst : forall (xs : list A) k, map fst (combine xs (seq k (length xs))) = xs.
Proof. induction xs; intros k; simpl; auto. now rewrite IHxs. Qed.
Lemma combine_snd : forall (xs : list A) k, map snd (combine xs (seq k (length xs))) = seq k (length xs).
Proof. induction xs; intros k; simpl; auto. now rewrite IHxs. Qed.

Lemma group_region : forall xs m f (Q : unit -> mem A -> Prop), 4 <= length xs <= 8 -> seg m f xs ->
  (forall m', seg m' f (ssort lt xs) -> only (within f (length xs)) m m' -> Q tt m') -> wp (do_swaps comp proj f (net (length xs)) (seq 0 8)) Q m.
Proof.
  intros xs m f Q HL HS HQ. destruct (nets_sort (length xs) HL) as [HV H01]. set (zs := combine xs (seq 0 (length xs))).
  assert (length zs = length xs) as LZ by (unfold zs; rewrite combine_length, seq_length; lia).
  replace (seq 0 8) with (map snd zs ++ seq (length xs) (8 - length xs)).
  2:{ unfold zs. rewrite combine_snd. rewrite <- seq_app. f_equal. lia. }
  apply do_swaps_region; [now rewrite LZ|unfold zs; now rewrite combine_fst|]. intros zs' m' HP HN S' O'. rewrite LZ in O'. apply HQ; auto.
  pose proof (Permutation_length HP) as LP.
  assert (zs' = ssort (plt lt) zs) as EZ.
  { apply (sorted_tag lt HW); auto. { unfold zs. rewrite combine_snd. apply seq_NoDup. }
    destruct xs as [|x0 xs']; [simpl in HL; lia|]. intros i j x y Hij Hi Hj. apply (nth_error_nth _ _ (x0, 0)) in Hi as <-. pose proof (nth_lt _ _ _ Hj). apply (nth_error_nth _ _ (x0, 0)) in Hj as <-. rewrite !HN. apply (zero_one (plt lt) (swo_plt lt HW) _ _ H01); auto. lia. }
  subst zs'. unfold zs in S'. now rewrite ssort_tag in S'.
Qed.
End Nets.
