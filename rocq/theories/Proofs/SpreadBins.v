(** spreadsort: the elements are put in the bins. *)
From Coq Require Import List Arith ZArith Lia Permutation Bool.
From Verif Require Import Spec.Order Lang.Mem Spec.Sorts Proofs.Wp Proofs.OrderLib Model.Indirect Proofs.Indirect Proofs.Search Proofs.Regions Proofs.Bins Model.Counting Model.Ska Proofs.SkaLib Model.Spread.
Import ListNotations.
Local Open Scope nat_scope.
Local Arguments nth_error : simpl never.
Local Arguments upd : simpl never.
Local Arguments Nat.leb : simpl never.
Local Arguments Nat.ltb : simpl never.
Local Arguments Nat.eqb : simpl never.
Local Arguments Nat.sub : simpl never.
Local Arguments loop : simpl never.
Local Opaque seq.

(** * The part of the vector that a call uses *)
Section Sect.
Context {A : Type} (cp cq : list (option nat)) (nb : nat).
Definition sect (h : nat -> option nat) : list (option nat) := cp ++ map h (seq 0 nb) ++ cq.

Lemma sect_ext : forall h h', (forall j, j < nb -> h j = h' j) -> sect h = sect h'.
Proof. intros h h' H. unfold sect. f_equal. f_equal. now apply map_seq_ext. Qed.
Lemma sect_len : forall h, length (sect h) = length cp + nb + length cq.
Proof. intros h. unfold sect. rewrite !app_length, map_length, seq_length. lia. Qed.
Lemma sect_nth : forall h p, p < nb -> nth_error (sect h) (length cp + p) = Some (h p).
Proof.
  intros h p Hp. unfold sect. rewrite nth_error_app2 by lia. replace (length cp + p - length cp) with p by lia. rewrite nth_error_app1 by (rewrite map_length, seq_length; lia).
  now apply nth_map_seq.
Qed.
Lemma sect_rd : forall h p v (Q : nat -> mem A -> Prop) m, p < nb -> h p = Some v -> Q v m -> wp (rd_init (sect h) (length cp + p)) Q m.
Proof. intros h p v Q m Hp Hv HQ. unfold rd_init. wstep. eapply wp_rd; [now apply sect_nth|]. rewrite Hv. now apply wp_ret. Qed.
Lemma sect_wr : forall h p v (Q : list (option nat) -> mem A -> Prop) m, p < nb -> Q (sect (fun j => if j =? p then v else h j)) m -> wp (wr (sect h) (length cp + p) v) Q m.
Proof.
  intros h p v Q m Hp HQ. apply wp_wr; [rewrite sect_len; lia|].
  replace (upd (length cp + p) v (sect h)) with (sect (fun j => if j =? p then v else h j)); auto.
  apply nth_ext. intros i. destruct (Nat.eq_dec i (length cp + p)) as [->|Hi].
  - rewrite sect_nth, nth_upd_eq by (rewrite ?sect_len; lia). now rewrite Nat.eqb_refl.
  - rewrite nth_upd_ne by auto. unfold sect. destruct (Nat.lt_ge_cases i (length cp)) as [H|H]; [now rewrite !nth_error_app1 by lia|].
    rewrite !(nth_error_app2 cp) by lia. destruct (Nat.lt_ge_cases (i - length cp) nb) as [H1|H1].
    + rewrite !nth_error_app1 by (rewrite map_length, seq_length; lia). rewrite !nth_map_seq by lia. destruct (Nat.eqb_spec (i - length cp) p); [lia|auto].
    + rewrite !nth_error_app2 by (rewrite map_length, seq_length; lia). now rewrite !map_length.
Qed.
End Sect.

Lemma wp_bind_inv : forall A X Y (c : M A X) (k : X -> M A Y) (Q : Y -> mem A -> Prop) m, wp (bind c k) Q m -> wp c (fun x m' => wp (k x) Q m') m.
Proof. intros A X Y c k Q m H. unfold wp, bind in *. destruct (c m); auto. Qed.

(** * Three elements, or two, are exchanged *)
Section Rot.
Context {A : Type}.
Implicit Types (m : mem A).
Lemma wp_rot3 : forall m f (ys : list A) i b c x y z (Q : unit -> mem A -> Prop), seg m f ys -> i <> b -> i <> c -> b <> c ->
  nth_error ys i = Some x -> nth_error ys b = Some y -> nth_error ys c = Some z ->
  (forall m', seg m' f (upd c y (upd i z (upd b x (upd i y ys)))) -> only (within f (length ys)) m m' -> Q tt m') ->
  wp (let* tmp := take (f + c) in move_to (f + b) (f + c) ;; move_to (f + i) (f + b) ;; put (f + i) tmp) Q m.
Proof.
  intros m f ys i b c x y z Q HS H1 H2 H3 Hi Hb Hc HQ. pose proof (seg_len _ _ _ HS) as HL.
  pose proof (nth_lt _ _ _ Hi). pose proof (nth_lt _ _ _ Hb). pose proof (nth_lt _ _ _ Hc).
  pose proof (seg_get _ _ _ _ _ HS Hi) as Mi. pose proof (seg_get _ _ _ _ _ HS Hb) as Mb. pose proof (seg_get _ _ _ _ _ HS Hc) as Mc.
  wstep. eapply wp_take; [exact Mc|]. wstep. eapply wp_move_to; [lia|rewrite nth_upd_ne by lia; exact Mb|apply nth_upd_eq; lia|discriminate|].
  wstep. eapply wp_move_to; [lia|rewrite !nth_upd_ne by lia; exact Mi|rewrite nth_upd_ne by lia; apply nth_upd_eq; rewrite upd_length; lia|discriminate|].
  eapply wp_put; [rewrite nth_upd_ne by lia; apply nth_upd_eq; rewrite !upd_length; lia|discriminate|]. apply HQ.
  - split; [rewrite !upd_length; lia|]. intros j w Hj. pose proof (nth_lt _ _ _ Hj) as Hjl. rewrite !upd_length in Hjl.
    destruct (Nat.eq_dec j i) as [->|Ni]; [|destruct (Nat.eq_dec j b) as [->|Nb]; [|destruct (Nat.eq_dec j c) as [->|Nc]]].
    + rewrite (nth_upd_eq (f + i)) by (rewrite !upd_length; lia). rewrite (nth_upd_ne c), nth_upd_eq in Hj by (rewrite ?upd_length; lia). congruence.
    + rewrite (nth_upd_ne (f + i)), (nth_upd_eq (f + b)) by (rewrite ?upd_length; lia). rewrite (nth_upd_ne c), (nth_upd_ne i), nth_upd_eq in Hj by (rewrite ?upd_length; lia). congruence.
    + rewrite (nth_upd_ne (f + i)), (nth_upd_ne (f + b)), (nth_upd_ne (f + i)), (nth_upd_eq (f + c)) by (rewrite ?upd_length; lia). rewrite nth_upd_eq in Hj by (rewrite ?upd_length; lia). congruence.
    + rewrite !nth_upd_ne by lia. rewrite !nth_upd_ne in Hj by lia. eapply seg_get; eauto.
  - split; [now rewrite !upd_length|]. intros k Hk. unfold within in Hk. rewrite !nth_upd_ne by lia. auto.
Qed.
Lemma wp_rot2 : forall m f (ys : list A) i b x y (Q : unit -> mem A -> Prop), seg m f ys -> i <> b ->
  nth_error ys i = Some x -> nth_error ys b = Some y ->
  (forall m', seg m' f (upd b x (upd i y ys)) -> only (within f (length ys)) m m' -> Q tt m') ->
  wp (let* tmp := take (f + b) in move_to (f + i) (f + b) ;; put (f + i) tmp) Q m.
Proof.
  intros m f ys i b x y Q HS H1 Hi Hb HQ. pose proof (seg_len _ _ _ HS) as HL.
  pose proof (nth_lt _ _ _ Hi). pose proof (nth_lt _ _ _ Hb).
  pose proof (seg_get _ _ _ _ _ HS Hi) as Mi. pose proof (seg_get _ _ _ _ _ HS Hb) as Mb.
  wstep. eapply wp_take; [exact Mb|]. wstep. eapply wp_move_to; [lia|rewrite nth_upd_ne by lia; exact Mi|apply nth_upd_eq; lia|discriminate|].
  eapply wp_put; [rewrite nth_upd_ne by lia; apply nth_upd_eq; rewrite !upd_length; lia|discriminate|]. apply HQ.
  - split; [rewrite !upd_length; lia|]. intros j w Hj. pose proof (nth_lt _ _ _ Hj) as Hjl. rewrite !upd_length in Hjl.
    destruct (Nat.eq_dec j i) as [->|Ni]; [|destruct (Nat.eq_dec j b) as [->|Nb]].
    + rewrite (nth_upd_eq (f + i)) by (rewrite !upd_length; lia). rewrite (nth_upd_ne b), nth_upd_eq in Hj by (rewrite ?upd_length; lia). congruence.
    + rewrite (nth_upd_ne (f + i)), (nth_upd_eq (f + b)) by (rewrite ?upd_length; lia). rewrite nth_upd_eq in Hj by (rewrite ?upd_length; lia). congruence.
    + rewrite !nth_upd_ne by lia. rewrite !nth_upd_ne in Hj by lia. eapply seg_get; eauto.
  - split; [now rewrite !upd_length|]. intros k Hk. unfold within in Hk. rewrite !nth_upd_ne by lia. auto.
Qed.
End Rot.

Section Fill.
Context {A : Type} (t : int_type) (proj : A -> Z) (ld dm : Z) (nb : nat) (bin : A -> nat).
Implicit Types (m : mem A).
Context (xs : list A) (f : nat) (m0 : mem A) (cp cq : list (option nat)).
Hypothesis Hbin : forall x m, In x xs -> bin_of t proj ld dm x m = Ok (bin x) m.
Hypothesis HB : forall x, In x xs -> bin x < nb.
Local Notation n := (length xs).
Local Notation cnt := (cnt bin xs).
Local Notation start := (start bin xs).
Local Notation placed := (placed nb bin xs).
Local Notation blocked := (blocked bin xs).
Local Notation slack := (slack nb bin xs).
Local Notation state := (state xs f m0).
Local Notation cache o := (sect cp cq nb (fun p => Some (f + o p))).

Lemma wp_bin : forall x (Q : nat -> mem A -> Prop) m, In x xs -> Q (bin x) m -> wp (bin_of t proj ld dm x) Q m.
Proof. intros x Q m Hx HQ. unfold wp. now rewrite Hbin. Qed.

Lemma sp_start_le : forall p, p <= nb -> start p <= n.
Proof. intros p Hp. rewrite <- (start_all nb bin xs HB). now apply start_mono. Qed.
Lemma sp_placed_ext : forall ys w w', placed ys w -> (forall p, p < nb -> w' p = w p) -> placed ys w'.
Proof. intros ys w w' H E p Hp. rewrite E by auto. apply (H p Hp). Qed.
Lemma sp_slack_ext : forall w w', (forall p, p < nb -> w' p = w p) -> slack w' = slack w.
Proof. intros w w' E. unfold Bins.slack. f_equal. apply map_seq_ext. intros j Hj. now rewrite E. Qed.
Lemma state_in : forall ys m i x, state ys m -> nth_error ys i = Some x -> In x xs.
Proof. intros ys m i x (_ & HP & _) Hx. eapply Permutation_in; [symmetry; exact HP|]. eapply nth_error_In; eauto. Qed.

Lemma count_bins_wp : forall m, (Z.of_nat nb <= 2 ^ max_finishing_splits)%Z -> seg m f xs ->
  wp (count_bins t proj ld dm nb f (f + n)) (fun v m' => m' = m /\ v = map cnt (seq 0 nb)) m.
Proof.
  intros m Hnb HS. unfold count_bins. destruct (Z.ltb_spec (2 ^ max_finishing_splits) (Z.of_nat nb)); [lia|].
  apply wp_loop' with (I := fun '(it, v) m' => m' = m /\ exists i, it = f + i /\ i <= n /\ v = map (Bins.cnt bin (firstn i xs)) (seq 0 nb)) (mu := fun '(it, _) => f + n - it); [|lia|].
  - split; auto. exists 0. cj; auto; try lia. clear. induction nb as [|k IH]; auto. rewrite seq_S, map_app, <- IH. cbn [map plus firstn]. unfold Bins.cnt. cbn [filter length].
    clear IH. induction k as [|k IH]; auto. cbn [repeat app]. now rewrite <- IH.
  - intros [it v] m' (-> & i & -> & Hi & ->). destruct (Nat.eqb_spec (f + i) (f + n)) as [E|E].
    + apply wp_ret. split; auto. replace i with n by lia. now rewrite firstn_all.
    + destruct (nth_some _ xs i) as (x & Hx); [lia|]. assert (Hin : In x xs) by (eapply nth_error_In; eauto). pose proof (HB x Hin).
      wstep. eapply wp_get; [eapply seg_get; eauto|]. wstep. apply wp_bin; auto. wstep. apply wp_rd_seq; auto. wstep. apply wp_wr_seq; auto.
      apply wp_ret. split; [|lia]. split; auto. exists (S i). cj; try lia. apply map_seq_ext. intros j Hj.
      rewrite (firstn_snoc _ xs i x) by auto. unfold Bins.cnt. rewrite !filter_app, !app_length. cbn [filter]. rewrite (Nat.eqb_sym (bin x) j). destruct (Nat.eqb_spec j (bin x)); subst; cbn [length]; lia.
Qed.

Lemma assign_bins_wp : forall h m, 0 < nb ->
  wp (assign_bins f nb (length cp) (map cnt (seq 0 nb)) (sect cp cq nb h)) (fun c m' => m' = m /\ c = cache start) m.
Proof.
  intros h m Hnb. unfold assign_bins. wstep. replace (length cp) with (length cp + 0) at 1 by lia. apply sect_wr; auto.
  apply wp_loop' with (I := fun '(u, c) m' => m' = m /\ u <= nb - 1 /\ exists h', c = sect cp cq nb h' /\ forall p, p <= u -> h' p = Some (f + start p)) (mu := fun '(u, _) => nb - u); [|lia|].
  - split; auto. split; [lia|]. eexists. split; [reflexivity|]. intros p Hp. replace p with 0 by lia. cbn [Bins.start]. now rewrite Nat.add_0_r.
  - intros [u c] m' (-> & Hu & h' & -> & Hh). destruct (Nat.ltb_spec u (nb - 1)) as [H|H].
    + wstep. eapply sect_rd; [lia|apply Hh; lia|]. wstep. apply wp_rd_seq; [lia|]. wstep. apply sect_wr; [lia|]. apply wp_ret. split; [|lia]. split; auto. split; [lia|]. eexists. split; [reflexivity|].
      intros p Hp. cbv beta. destruct (Nat.eqb_spec p (u + 1)) as [->|]; [|apply Hh; lia]. f_equal. replace (u + 1) with (S u) by lia. rewrite start_S. lia.
    + apply wp_ret. split; auto. apply sect_ext. intros j Hj. apply Hh. lia.
Qed.

(** The frontiers while the bin [u] is examined. *)
Definition Wf (o : nat -> nat) (u i : nat) : nat -> nat := fun p => if p =? u then i else o p.
Lemma Wf_eq : forall o u i, Wf o u i u = i.
Proof. intros. unfold Wf. now rewrite Nat.eqb_refl. Qed.
Lemma Wf_ne : forall o u i p, p <> u -> Wf o u i p = o p.
Proof. intros. unfold Wf. destruct (Nat.eqb_spec p u); [contradiction|auto]. Qed.

Lemma Wf_bump : forall o u i p, p <> u -> forall r, r < nb -> Wf (bump o p) u i r = bump (Wf o u i) p r.
Proof.
  intros o u i p Hp r Hr. unfold bump at 2. destruct (Nat.eqb_spec r p) as [->|]; [rewrite !Wf_ne by auto; apply bump_eq|].
  unfold Wf. destruct (Nat.eqb_spec r u); auto. now apply bump_ne.
Qed.
Lemma cache_bump : forall o p, cache (bump o p) = sect cp cq nb (fun j => if j =? p then Some (S (f + o p)) else Some (f + o j)).
Proof. intros o p. apply sect_ext. intros j Hj. unfold bump. destruct (Nat.eqb_spec j p) as [->|]; auto. Qed.

Lemma replace_element_wp : forall u i o ys m, u < nb -> start u <= i < start (S u) -> state ys m -> placed ys (Wf o u i) ->
  wp (replace_element t proj ld dm f (f + n) (length cp) u (f + i) (cache o))
    (fun c m' => exists ys' o', state ys' m' /\ c = cache o' /\ placed ys' (Wf o' u i) /\ (forall p, p <= u -> o p = start (S p) \/ p = u -> o' p = o p) /\
       exists x, nth_error ys' i = Some x /\ bin x = u) m.
Proof.
  intros u i o ys m Hu Hi HS HW. unfold replace_element.
  apply wp_loop_k with (k := slack (Wf o u i)) (I := fun q c m' => exists ys' o', state ys' m' /\ c = cache o' /\ placed ys' (Wf o' u i) /\ (forall p, p <= u -> o p = start (S p) \/ p = u -> o' p = o p) /\ slack (Wf o' u i) = q).
  - exists ys, o. auto 6.
  - assert (slack (Wf o u i) <= n) by (eapply slack_init; eauto). lia.
  - clear ys m HS HW. intros q c m (ys & o' & HS & -> & HW & HK & HQ).
    assert (HP : Permutation xs ys) by (destruct HS as (_ & HP & _); exact HP).
    assert (Hly : length ys = n) by (eapply state_len; eauto). pose proof (sp_start_le (S u) Hu) as Hun.
    destruct (nth_some _ ys i) as (x & Hx); [lia|]. assert (Hxin : In x xs) by (eapply state_in; eauto). pose proof (HB x Hxin) as Hbx.
    wstep. eapply state_get; eauto. wstep. apply wp_bin; auto.
    destruct (Nat.eqb_spec (bin x) u) as [E|E]. { apply wp_ret. exists ys, o'. split; [exact HS|]. split; [reflexivity|]. split; auto. split; auto. exists x. auto. }
    assert (Hout : forall o1 r, r < nb -> (forall p, p < nb -> p <> u -> start p <= o1 p <= start (S p)) -> ~ (start r <= i < Wf o1 u i r)).
    { intros o1 r Hr Ho H. assert (r = u) as ->; [|rewrite Wf_eq in H; lia]. destruct (Nat.eq_dec r u) as [|Nr]; auto. rewrite Wf_ne in H by auto. specialize (Ho r Hr Nr). apply (region_uniq bin xs i); lia. }
    assert (Ho' : forall p, p < nb -> p <> u -> start p <= o' p <= start (S p)). { intros p Hp Np. destruct (HW p Hp) as [H _]. now rewrite Wf_ne in H. }
    pose proof (placed_room nb bin xs HB ys HP _ _ _ HW Hx (Hout o' _ Hbx Ho')) as HR. rewrite Wf_ne in HR by auto.
    pose proof (sp_start_le (S (bin x)) Hbx) as Hbn. destruct (Ho' _ Hbx E) as [Hb1 _].
    destruct (nth_some _ ys (o' (bin x))) as (y & Hy); [lia|]. assert (Hyin : In y xs) by (eapply state_in; eauto). pose proof (HB y Hyin) as Hby.
    assert (Nib : i <> o' (bin x)). { intros EE. apply E. apply (region_uniq bin xs i); rewrite ?EE; lia. }
    wstep. eapply sect_rd; [exact Hbx|reflexivity|]. wstep. apply sect_wr; [exact Hbx|]. rewrite <- (cache_bump o' (bin x)). wstep. eapply state_get; eauto. wstep. apply wp_bin; auto.
    (* the first exchange *)
    set (ys1 := upd (o' (bin x)) x (upd i y ys)). set (o1 := bump o' (bin x)).
    assert (HW1 : placed ys1 (Wf o1 u i)).
    { assert (HPS : placed (upd (Wf o' u i (bin x)) x (upd i y ys)) (bump (Wf o' u i) (bin x))). { apply placed_swap; auto. rewrite Wf_ne; auto. }
      rewrite Wf_ne in HPS by auto. eapply sp_placed_ext; [exact HPS|]. intros p Hp. now apply Wf_bump. }
    assert (HP1 : Permutation xs ys1). { rewrite HP. symmetry. now apply swap_perm. }
    assert (HK1 : slack (Wf o1 u i) < slack (Wf o' u i)). { rewrite (sp_slack_ext (bump (Wf o' u i) (bin x)) (Wf o1 u i)) by (intros p Hp; now apply Wf_bump). apply slack_bump; auto. now rewrite Wf_ne. }
    assert (Hk1 : forall p, p <= u -> o p = start (S p) \/ p = u -> o1 p = o p).
    { intros p Hp Hd. unfold o1, bump. destruct (Nat.eqb_spec p (bin x)) as [Ep|]; [|now apply HK]. exfalso. destruct Hd as [Hd|Hd]; [|congruence]. rewrite <- Ep, (HK p) in HR by auto. lia. }
    destruct (Nat.eqb_spec (bin y) u) as [Ey|Ey]; cbn [negb].
    + destruct HS as (HSg & _ & HO).
      change (wp (let* tmp := take (f + o' (bin x)) in move_to (f + i) (f + o' (bin x)) ;; put (f + i) tmp ;; ret (inl (cache o1))) (fun r m' => match r with
         | inl s' => exists k', k' < q /\ exists ys' o', state ys' m' /\ s' = cache o' /\ placed ys' (Wf o' u i) /\ (forall p, p <= u -> o p = start (S p) \/ p = u -> o' p = o p) /\ slack (Wf o' u i) = k'
         | inr c => exists ys' o', state ys' m' /\ c = cache o' /\ placed ys' (Wf o' u i) /\ (forall p, p <= u -> o p = start (S p) \/ p = u -> o' p = o p) /\ exists x, nth_error ys' i = Some x /\ bin x = u end) m).
      pose proof (wp_rot2 m f ys i (o' (bin x)) x y (fun _ m' => state ys1 m') HSg Nib Hx Hy) as HR2.
      assert (HR3 : wp (let* tmp := take (f + o' (bin x)) in move_to (f + i) (f + o' (bin x)) ;; put (f + i) tmp) (fun _ m' => state ys1 m') m).
      { apply HR2. intros m' HS' HO'. split; auto. split; auto. eapply only_trans; [exact HO|]. now rewrite <- Hly. }
      clear HR2. apply wp_bind. apply wp_bind_inv in HR3. eapply wp_mono; [exact HR3|]. cbv beta. intros z m1 H1. apply wp_bind. apply wp_bind_inv in H1. eapply wp_mono; [exact H1|]. cbv beta. intros [] m2 H2.
      apply wp_bind. eapply wp_mono; [exact H2|]. cbv beta. intros [] m3 H3. apply wp_ret. exists (slack (Wf o1 u i)). split; [lia|]. exists ys1, o1. split; [exact H3|]. split; [reflexivity|]. auto.
    + assert (Hy1 : nth_error ys1 i = Some y). { unfold ys1. rewrite nth_upd_ne by auto. apply nth_upd_eq. lia. }
      assert (Ho1 : forall p, p < nb -> p <> u -> start p <= o1 p <= start (S p)). { intros p Hp Np. destruct (HW1 p Hp) as [H _]. now rewrite Wf_ne in H. }
      pose proof (placed_room nb bin xs HB ys1 HP1 _ _ _ HW1 Hy1 (Hout o1 _ Hby Ho1)) as HRy. rewrite Wf_ne in HRy by auto.
      pose proof (sp_start_le (S (bin y)) Hby) as Hcn. destruct (Ho1 _ Hby Ey) as [Hc1 _].
      assert (Nic : i <> o1 (bin y)). { intros EE. apply Ey. apply (region_uniq bin xs i); rewrite ?EE; lia. }
      assert (Nbc : o' (bin x) <> o1 (bin y)).
      { intros EE. destruct (Nat.eq_dec (bin x) (bin y)) as [Exy|Nxy]. { rewrite <- Exy in EE. unfold o1 in EE. rewrite bump_eq in EE. lia. } apply Nxy. apply (region_uniq bin xs (o' (bin x))); lia. }
      destruct (nth_some _ ys (o1 (bin y))) as (z & Hz); [lia|].
      assert (Hz1 : nth_error ys1 (o1 (bin y)) = Some z). { unfold ys1. now rewrite !nth_upd_ne by auto. }
      wstep. eapply sect_rd; [exact Hby|reflexivity|]. wstep. apply sect_wr; [exact Hby|]. fold o1. rewrite <- (cache_bump o1 (bin y)).
      set (ys2 := upd (o1 (bin y)) y (upd i z ys1)). set (o2 := bump o1 (bin y)).
      assert (HW2 : placed ys2 (Wf o2 u i)).
      { assert (HPS : placed (upd (Wf o1 u i (bin y)) y (upd i z ys1)) (bump (Wf o1 u i) (bin y))). { apply placed_swap; auto. rewrite Wf_ne; auto. }
        rewrite Wf_ne in HPS by auto. eapply sp_placed_ext; [exact HPS|]. intros p Hp. now apply Wf_bump. }
      assert (HP2 : Permutation xs ys2). { rewrite HP1. symmetry. now apply swap_perm. }
      assert (HK2 : slack (Wf o2 u i) < slack (Wf o1 u i)). { rewrite (sp_slack_ext (bump (Wf o1 u i) (bin y)) (Wf o2 u i)) by (intros p Hp; now apply Wf_bump). apply slack_bump; auto. now rewrite Wf_ne. }
      assert (Hk2 : forall p, p <= u -> o p = start (S p) \/ p = u -> o2 p = o p).
      { intros p Hp Hd. unfold o2, bump. destruct (Nat.eqb_spec p (bin y)) as [Ep|]; [|now apply Hk1]. exfalso. destruct Hd as [Hd|Hd]; [|congruence]. rewrite <- Ep, (Hk1 p) in HRy by auto. lia. }
      destruct HS as (HSg & _ & HO).
      assert (HR3 : wp (let* tmp := take (f + o1 (bin y)) in move_to (f + o' (bin x)) (f + o1 (bin y)) ;; move_to (f + i) (f + o' (bin x)) ;; put (f + i) tmp) (fun _ m' => state ys2 m') m).
      { eapply (wp_rot3 m f ys i (o' (bin x)) (o1 (bin y)) x y z); eauto. intros m' HS' HO'. split; auto. split; auto. eapply only_trans; [exact HO|]. now rewrite <- Hly. }
      apply wp_bind. apply wp_bind_inv in HR3. eapply wp_mono; [exact HR3|]. cbv beta. intros z' m1 H1. apply wp_bind. apply wp_bind_inv in H1. eapply wp_mono; [exact H1|]. cbv beta. intros [] m2 H2.
      apply wp_bind. apply wp_bind_inv in H2. eapply wp_mono; [exact H2|]. cbv beta. intros [] m3 H3. apply wp_bind. eapply wp_mono; [exact H3|]. cbv beta. intros [] m4 H4. apply wp_ret.
      exists (slack (Wf o2 u i)). split; [lia|]. exists ys2, o2. split; [exact H4|]. split; [reflexivity|]. auto.
Qed.

Lemma fill_bins_wp : forall m, 0 < nb -> m = m0 -> seg m f xs ->
  wp (fill_bins t proj ld dm f (f + n) nb (length cp) (map cnt (seq 0 nb)) (cache start)) (fun c m' => c = cache (fun p => start (S p)) /\ exists ys, state ys m' /\ blocked ys) m.
Proof.
  intros m Hnb Em HS. unfold fill_bins. wstep.
  apply wp_loop' with (I := fun '(u, nx, c) m' => u <= nb - 1 /\ nx = f + start u /\ exists ys o, state ys m' /\ c = cache o /\ placed ys o /\ forall p, p < u -> o p = start (S p)) (mu := fun '(u, _, _) => nb - u); [|lia|].
  - split; [lia|]. split; [cbn [Bins.start]; lia|]. exists xs, start. split. { split; [exact HS|]. split; auto. rewrite Em. apply only_refl. } split; [reflexivity|]. split; [|lia].
    intros p Hp. split; [rewrite start_S; lia|]. intros i x Hi. lia.
  - clear m Em HS. intros [[u nx] c] m (Hu & -> & ys & o & HS & -> & HW & HD). destruct (Nat.ltb_spec u (nb - 1)) as [H|H].
    + wstep. apply wp_rd_seq; [lia|]. wstep. eapply sect_rd; [lia|reflexivity|]. wstep.
      pose proof (sp_start_le (S u) ltac:(lia)) as Hun. destruct (HW u ltac:(lia)) as [Hou _]. rewrite start_S in Hun, Hou.
      apply wp_loop' with (I := fun '(cur, c) m' => exists i ys' o', cur = f + i /\ o u <= i <= start u + cnt u /\ state ys' m' /\ c = cache o' /\ placed ys' (Wf o' u i) /\ forall p, p < u -> o' p = start (S p))
        (mu := fun '(cur, _) => f + (start u + cnt u) - cur).
      * exists (o u), ys, o. split; auto. split; [lia|]. split; [exact HS|]. split; [reflexivity|]. split; auto. eapply sp_placed_ext; [exact HW|]. intros p Hp. unfold Wf. destruct (Nat.eqb_spec p u) as [->|]; auto.
      * lia.
      * clear ys HS HW m. intros [cur c] m (i & ys & o1 & -> & Hi & HS & -> & HW & HD1). destruct (Nat.ltb_spec (f + i) (f + start u + cnt u)) as [Hlt|Hge].
        -- wstep. eapply wp_mono; [apply (replace_element_wp u i o1 ys); auto; [lia|rewrite start_S; lia]|]. cbv beta. intros c m' (ys' & o2 & HS' & -> & HW' & HK & x & Hx & Ex). apply wp_ret. split; [|lia].
           exists (S i), ys', o2. split; [lia|]. split; [lia|]. split; [exact HS'|]. split; [reflexivity|]. split.
           ++ eapply sp_placed_ext; [eapply (placed_stay nb bin xs HB ys' (Wf o2 u i) x)|].
              ** destruct HS' as (_ & HP & _). exact HP.
              ** exact HW'.
              ** rewrite Ex, Wf_eq. exact Hx.
              ** intros p Hp. rewrite Ex. unfold bump. rewrite Wf_eq. unfold Wf. destruct (Nat.eqb_spec p u); auto.
           ++ intros p Hp. rewrite HK by (auto; lia). auto.
        -- apply wp_ret. wstep. apply sect_wr; [lia|]. apply wp_ret. split; [|lia]. split; [lia|]. split; [rewrite start_S; lia|]. exists ys, (Wf o1 u (start (S u))). split; [exact HS|]. split; [|split].
           ++ apply sect_ext. intros j Hj. unfold Wf. destruct (Nat.eqb_spec j u) as [->|]; auto. f_equal. rewrite start_S. lia.
           ++ rewrite start_S. replace (start u + cnt u) with i by lia. exact HW.
           ++ intros p Hp. unfold Wf. destruct (Nat.eqb_spec p u) as [->|]; auto. apply HD1. lia.
    + apply wp_ret. replace (u) with (nb - 1) in * by lia. apply sect_wr; [lia|]. split.
      * apply sect_ext. intros j Hj. destruct (Nat.eqb_spec j (nb - 1)) as [->|]; [|rewrite HD by lia; auto]. f_equal. replace (S (nb - 1)) with nb by lia. now rewrite (start_all nb bin xs HB).
      * exists ys. split; auto. destruct HS as (_ & HP & _). apply (placed_blocked nb bin xs HB ys HP o (nb - 1) HW). intros p Hp Np. apply HD. lia.
Qed.
End Fill.
