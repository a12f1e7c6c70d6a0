(** spreadsort on floating point keys: the regions of the bins are in another order than the bins. *)
From Coq Require Import List Arith ZArith Lia Permutation Bool.
From Verif Require Import Spec.Order Lang.Mem Spec.Sorts Proofs.Wp Proofs.OrderLib Model.Indirect Proofs.Indirect Proofs.Search Proofs.Regions Proofs.Bins Model.Counting Model.Ska Proofs.SkaLib Model.Spread Proofs.SpreadBins
  Model.Ieee Model.SpreadFloat.
Import ListNotations.
Local Open Scope nat_scope.
Local Arguments nth_error : simpl never.
Local Arguments upd : simpl never.
Local Arguments Nat.leb : simpl never.
Local Arguments Nat.ltb : simpl never.
Local Arguments Nat.eqb : simpl never.
Local Arguments Nat.sub : simpl never.
Local Arguments loop : simpl never.
Local Opaque seq.

Section Fill.
Context {A : Type} {fmt : format} (proj : A -> number fmt) (ld dm : Z) (nb : nat) (pb : A -> nat) (sg : nat -> nat).
Local Notation t := (div_type fmt).
Local Notation key := (fun x => cast (proj x)).
Implicit Types (m : mem A).
Context (xs : list A) (f : nat) (m0 : mem A) (cp cq : list (option nat)).
Hypothesis Hbin : forall x m, In x xs -> bin_of t key ld dm x m = Ok (pb x) m.
Hypothesis HPB : forall x, In x xs -> pb x < nb.
Hypothesis HS1 : forall p, p < nb -> sg p < nb.
Hypothesis HS2 : forall p q, p < nb -> q < nb -> sg p = sg q -> p = q.
Definition bin (x : A) : nat := sg (pb x).
Lemma HB : forall x, In x xs -> bin x < nb.
Proof. intros x Hx. apply HS1. auto. Qed.
Local Notation n := (length xs).
Local Notation cnt := (cnt bin xs).
Local Notation start := (start bin xs).
Local Notation placed := (placed nb bin xs).
Local Notation blocked := (blocked bin xs).
Local Notation slack := (slack nb bin xs).
Local Notation state := (state xs f m0).
Local Notation cache o := (sect cp cq nb (fun p => Some (f + o (sg p)))).

Lemma wp_pbin : forall x (Q : nat -> mem A -> Prop) m, In x xs -> Q (pb x) m -> wp (bin_of t key ld dm x) Q m.
Proof. intros x Q m Hx HQ. unfold wp. now rewrite Hbin. Qed.
Lemma pcnt : forall p, p < nb -> Bins.cnt pb xs p = cnt (sg p).
Proof.
  intros p Hp. unfold Bins.cnt. f_equal. assert (H : forall l, (forall x, In x l -> pb x < nb) -> filter (fun x => pb x =? p) l = filter (fun x => bin x =? sg p) l).
  { induction l as [|x l IH]; intros Hl; auto. cbn [filter]. rewrite IH by (intros; apply Hl; now right). unfold bin. destruct (Nat.eqb_spec (pb x) p) as [->|N]; [now rewrite Nat.eqb_refl|].
    destruct (Nat.eqb_spec (sg (pb x)) (sg p)) as [E|]; auto. apply HS2 in E; auto; [contradiction|apply Hl; now left]. }
  apply H. exact HPB.
Qed.
Lemma pcnts : map (Bins.cnt pb xs) (seq 0 nb) = map (fun p => cnt (sg p)) (seq 0 nb).
Proof. apply map_seq_ext. intros. now apply pcnt. Qed.

Lemma fl_start_le : forall p, p <= nb -> start p <= n.
Proof. intros p Hp. rewrite <- (start_all nb bin xs HB). now apply start_mono. Qed.
Lemma fl_placed_ext : forall ys w w', placed ys w -> (forall p, p < nb -> w' p = w p) -> placed ys w'.
Proof. intros ys w w' H E p Hp. rewrite E by auto. apply (H p Hp). Qed.
Lemma fl_slack_ext : forall w w', (forall p, p < nb -> w' p = w p) -> slack w' = slack w.
Proof. intros w w' E. unfold Bins.slack. f_equal. apply map_seq_ext. intros j Hj. now rewrite E. Qed.
Lemma fl_cache_bump : forall o p, p < nb -> cache (bump o (sg p)) = sect cp cq nb (fun j => if j =? p then Some (S (f + o (sg p))) else Some (f + o (sg j))).
Proof.
  intros o p Hp. apply sect_ext. intros j Hj. unfold bump. destruct (Nat.eqb_spec j p) as [->|N]; [rewrite Nat.eqb_refl; f_equal; lia|].
  destruct (Nat.eqb_spec (sg j) (sg p)) as [E|]; auto. apply HS2 in E; auto. contradiction.
Qed.
Lemma pb_eq : forall x u, In x xs -> u < nb -> (pb x = u <-> bin x = sg u).
Proof. intros x u Hx Hu. unfold bin. split; [congruence|]. intros E. apply HS2 in E; auto. Qed.

Lemma replace_element_wp : forall lb u i o ys m, lb < nb -> u = sg lb -> start u <= i < start (S u) -> state ys m -> placed ys (Wf o u i) ->
  wp (replace_element t key ld dm f (f + n) (length cp) lb (f + i) (cache o))
    (fun c m' => exists ys' o', state ys' m' /\ c = cache o' /\ placed ys' (Wf o' u i) /\ (forall p, p < nb -> o p = start (S p) \/ p = u -> o' p = o p) /\
       exists x, nth_error ys' i = Some x /\ bin x = u) m.
Proof.
  intros lb u i o ys m Hlb Eu Hi HS HW. assert (Hu : u < nb) by (rewrite Eu; auto). pose proof HB as HB0. unfold replace_element.
  apply wp_loop_k with (k := slack (Wf o u i)) (I := fun q c m' => exists ys' o', state ys' m' /\ c = cache o' /\ placed ys' (Wf o' u i) /\ (forall p, p < nb -> o p = start (S p) \/ p = u -> o' p = o p) /\ slack (Wf o' u i) = q).
  - exists ys, o. auto 6.
  - assert (slack (Wf o u i) <= n) by (eapply slack_init; eauto). lia.
  - clear ys m HS HW. intros q c m (ys & o' & HS & -> & HW & HK & HQ).
    assert (HP : Permutation xs ys) by (destruct HS as (_ & HP & _); exact HP).
    assert (Hly : length ys = n) by (eapply state_len; eauto). pose proof (fl_start_le (S u) Hu) as Hun.
    destruct (nth_some _ ys i) as (x & Hx); [lia|]. assert (Hxin : In x xs) by (eapply (SpreadBins.state_in xs f m0); eauto). pose proof (HB x Hxin) as Hbx. pose proof (HPB x Hxin) as Hpx. pose proof (pb_eq x lb Hxin Hlb) as Hqx. rewrite <- Eu in Hqx.
    wstep. eapply state_get; eauto. wstep. apply wp_pbin; auto.
    destruct (Nat.eqb_spec (pb x) lb) as [E|E]; [apply Hqx in E|assert (E' : bin x <> u) by tauto; clear E; rename E' into E]. { apply wp_ret. exists ys, o'. split; [exact HS|]. split; [reflexivity|]. split; auto. split; auto. exists x. auto. }
    assert (Hout : forall o1 r, r < nb -> (forall p, p < nb -> p <> u -> start p <= o1 p <= start (S p)) -> ~ (start r <= i < Wf o1 u i r)).
    { intros o1 r Hr Ho H. assert (r = u) as ->; [|rewrite Wf_eq in H; lia]. destruct (Nat.eq_dec r u) as [|Nr]; auto. rewrite Wf_ne in H by auto. specialize (Ho r Hr Nr). apply (region_uniq bin xs i); lia. }
    assert (Ho' : forall p, p < nb -> p <> u -> start p <= o' p <= start (S p)). { intros p Hp Np. destruct (HW p Hp) as [H _]. now rewrite Wf_ne in H. }
    pose proof (placed_room nb bin xs HB ys HP _ _ _ HW Hx (Hout o' _ Hbx Ho')) as HR. rewrite Wf_ne in HR by auto.
    pose proof (fl_start_le (S (bin x)) Hbx) as Hbn. destruct (Ho' _ Hbx E) as [Hb1 _].
    destruct (nth_some _ ys (o' (bin x))) as (y & Hy); [lia|]. assert (Hyin : In y xs) by (eapply (SpreadBins.state_in xs f m0); eauto). pose proof (HB y Hyin) as Hby. pose proof (HPB y Hyin) as Hpy. pose proof (pb_eq y lb Hyin Hlb) as Hqy. rewrite <- Eu in Hqy.
    assert (Nib : i <> o' (bin x)). { intros EE. apply E. apply (region_uniq bin xs i); rewrite ?EE; lia. }
    wstep. eapply sect_rd; [exact Hpx|reflexivity|]. wstep. apply sect_wr; [exact Hpx|]. rewrite <- (fl_cache_bump o' (pb x) Hpx). fold (bin x). wstep. eapply state_get; eauto. wstep. apply wp_pbin; auto.
    (* the first exchange *)
    set (ys1 := upd (o' (bin x)) x (upd i y ys)). set (o1 := bump o' (bin x)).
    assert (HW1 : placed ys1 (Wf o1 u i)).
    { assert (HPS : placed (upd (Wf o' u i (bin x)) x (upd i y ys)) (bump (Wf o' u i) (bin x))). { apply placed_swap; auto. rewrite Wf_ne; auto. }
      rewrite Wf_ne in HPS by auto. eapply fl_placed_ext; [exact HPS|]. intros p Hp. now apply (Wf_bump nb). }
    assert (HP1 : Permutation xs ys1). { rewrite HP. symmetry. now apply swap_perm. }
    assert (HK1 : slack (Wf o1 u i) < slack (Wf o' u i)). { rewrite (fl_slack_ext (bump (Wf o' u i) (bin x)) (Wf o1 u i)) by (intros p Hp; now apply (Wf_bump nb)). apply slack_bump; auto. now rewrite Wf_ne. }
    assert (Hk1 : forall p, p < nb -> o p = start (S p) \/ p = u -> o1 p = o p).
    { intros p Hp Hd. unfold o1, bump. destruct (Nat.eqb_spec p (bin x)) as [Ep|]; [|now apply HK]. exfalso. destruct Hd as [Hd|Hd]; [|congruence]. rewrite <- Ep, (HK p) in HR by auto. lia. }
    destruct (Nat.eqb_spec (pb y) lb) as [Ey|Ey]; [apply Hqy in Ey|assert (Ey' : bin y <> u) by tauto; clear Ey; rename Ey' into Ey]; cbn [negb].
    + destruct HS as (HSg & _ & HO).
      change (wp (let* tmp := take (f + o' (bin x)) in move_to (f + i) (f + o' (bin x)) ;; put (f + i) tmp ;; ret (inl (cache o1))) (fun r m' => match r with
         | inl s' => exists k', k' < q /\ exists ys' o', state ys' m' /\ s' = cache o' /\ placed ys' (Wf o' u i) /\ (forall p, p < nb -> o p = start (S p) \/ p = u -> o' p = o p) /\ slack (Wf o' u i) = k'
         | inr c => exists ys' o', state ys' m' /\ c = cache o' /\ placed ys' (Wf o' u i) /\ (forall p, p < nb -> o p = start (S p) \/ p = u -> o' p = o p) /\ exists x, nth_error ys' i = Some x /\ bin x = u end) m).
      pose proof (wp_rot2 m f ys i (o' (bin x)) x y (fun _ m' => state ys1 m') HSg Nib Hx Hy) as HR2.
      assert (HR3 : wp (let* tmp := take (f + o' (bin x)) in move_to (f + i) (f + o' (bin x)) ;; put (f + i) tmp) (fun _ m' => state ys1 m') m).
      { apply HR2. intros m' HS' HO'. split; auto. split; auto. eapply only_trans; [exact HO|]. now rewrite <- Hly. }
      clear HR2. apply wp_bind. apply wp_bind_inv in HR3. eapply wp_mono; [exact HR3|]. cbv beta. intros z m1 H1. apply wp_bind. apply wp_bind_inv in H1. eapply wp_mono; [exact H1|]. cbv beta. intros [] m2 H2.
      apply wp_bind. eapply wp_mono; [exact H2|]. cbv beta. intros [] m3 H3. apply wp_ret. exists (slack (Wf o1 u i)). split; [lia|]. exists ys1, o1. split; [exact H3|]. split; [reflexivity|]. auto.
    + assert (Hy1 : nth_error ys1 i = Some y). { unfold ys1. rewrite nth_upd_ne by auto. apply nth_upd_eq. lia. }
      assert (Ho1 : forall p, p < nb -> p <> u -> start p <= o1 p <= start (S p)). { intros p Hp Np. destruct (HW1 p Hp) as [H _]. now rewrite Wf_ne in H. }
      pose proof (placed_room nb bin xs HB ys1 HP1 _ _ _ HW1 Hy1 (Hout o1 _ Hby Ho1)) as HRy. rewrite Wf_ne in HRy by auto.
      pose proof (fl_start_le (S (bin y)) Hby) as Hcn. destruct (Ho1 _ Hby Ey) as [Hc1 _].
      assert (Nic : i <> o1 (bin y)). { intros EE. apply Ey. apply (region_uniq bin xs i); rewrite ?EE; lia. }
      assert (Nbc : o' (bin x) <> o1 (bin y)).
      { intros EE. destruct (Nat.eq_dec (bin x) (bin y)) as [Exy|Nxy]. { rewrite <- Exy in EE. unfold o1 in EE. rewrite bump_eq in EE. lia. } apply Nxy. apply (region_uniq bin xs (o' (bin x))); lia. }
      destruct (nth_some _ ys (o1 (bin y))) as (z & Hz); [lia|].
      assert (Hz1 : nth_error ys1 (o1 (bin y)) = Some z). { unfold ys1. now rewrite !nth_upd_ne by auto. }
      wstep. eapply sect_rd; [exact Hpy|reflexivity|]. wstep. apply sect_wr; [exact Hpy|]. fold o1. rewrite <- (fl_cache_bump o1 (pb y) Hpy). fold (bin y).
      set (ys2 := upd (o1 (bin y)) y (upd i z ys1)). set (o2 := bump o1 (bin y)).
      assert (HW2 : placed ys2 (Wf o2 u i)).
      { assert (HPS : placed (upd (Wf o1 u i (bin y)) y (upd i z ys1)) (bump (Wf o1 u i) (bin y))). { apply placed_swap; auto. rewrite Wf_ne; auto. }
        rewrite Wf_ne in HPS by auto. eapply fl_placed_ext; [exact HPS|]. intros p Hp. now apply (Wf_bump nb). }
      assert (HP2 : Permutation xs ys2). { rewrite HP1. symmetry. now apply swap_perm. }
      assert (HK2 : slack (Wf o2 u i) < slack (Wf o1 u i)). { rewrite (fl_slack_ext (bump (Wf o1 u i) (bin y)) (Wf o2 u i)) by (intros p Hp; now apply (Wf_bump nb)). apply slack_bump; auto. now rewrite Wf_ne. }
      assert (Hk2 : forall p, p < nb -> o p = start (S p) \/ p = u -> o2 p = o p).
      { intros p Hp Hd. unfold o2, bump. destruct (Nat.eqb_spec p (bin y)) as [Ep|]; [|now apply Hk1]. exfalso. destruct Hd as [Hd|Hd]; [|congruence]. rewrite <- Ep, (Hk1 p) in HRy by auto. lia. }
      destruct HS as (HSg & _ & HO).
      assert (HR3 : wp (let* tmp := take (f + o1 (bin y)) in move_to (f + o' (bin x)) (f + o1 (bin y)) ;; move_to (f + i) (f + o' (bin x)) ;; put (f + i) tmp) (fun _ m' => state ys2 m') m).
      { eapply (wp_rot3 m f ys i (o' (bin x)) (o1 (bin y)) x y z); eauto. intros m' HS' HO'. split; auto. split; auto. eapply only_trans; [exact HO|]. now rewrite <- Hly. }
      apply wp_bind. apply wp_bind_inv in HR3. eapply wp_mono; [exact HR3|]. cbv beta. intros z' m1 H1. apply wp_bind. apply wp_bind_inv in H1. eapply wp_mono; [exact H1|]. cbv beta. intros [] m2 H2.
      apply wp_bind. apply wp_bind_inv in H2. eapply wp_mono; [exact H2|]. cbv beta. intros [] m3 H3. apply wp_bind. eapply wp_mono; [exact H3|]. cbv beta. intros [] m4 H4. apply wp_ret.
      exists (slack (Wf o2 u i)). split; [lia|]. exists ys2, o2. split; [exact H4|]. split; [reflexivity|]. auto.
Qed.

Definition done_bin (o : nat -> nat) (p : nat) : Prop := o p = start (S p).
Lemma inner_wp : forall lb ys o m, lb < nb -> state ys m -> placed ys o ->
  wp (inner_float_swap_loop proj ld dm f (f + n) (length cp) lb (f + start (S (sg lb))) (cache o))
    (fun c m' => exists ys' o', state ys' m' /\ c = cache o' /\ placed ys' o' /\ done_bin o' (sg lb) /\ forall p, p < nb -> done_bin o p -> done_bin o' p) m.
Proof.
  intros lb ys o m Hlb HS HW. unfold inner_float_swap_loop, done_bin. set (u := sg lb). assert (Hu : u < nb) by (apply HS1; auto). pose proof (fl_start_le (S u) Hu) as Hun. destruct (HW u Hu) as [Hou _].
  wstep. eapply sect_rd; [exact Hlb|reflexivity|]. fold u. wstep.
  apply wp_loop' with (I := fun '(cur, c) m' => exists i ys' o', cur = f + i /\ o u <= i <= start (S u) /\ state ys' m' /\ c = cache o' /\ placed ys' (Wf o' u i) /\ forall p, p < nb -> o p = start (S p) -> o' p = o p)
    (mu := fun '(cur, _) => f + start (S u) - cur).
  - exists (o u), ys, o. split; auto. split; [lia|]. split; [exact HS|]. split; [reflexivity|]. split; auto. eapply fl_placed_ext; [exact HW|]. intros p Hp. unfold Wf. destruct (Nat.eqb_spec p u) as [->|]; auto.
  - lia.
  - clear ys HS HW m. intros [cur c] m (i & ys & o1 & -> & Hi & HS & -> & HW & HD1). destruct (Nat.ltb_spec (f + i) (f + start (S u))) as [Hlt|Hge].
    + wstep. eapply wp_mono; [apply (replace_element_wp lb u i o1 ys); auto; lia|]. cbv beta. intros c m' (ys' & o2 & HS' & -> & HW' & HK & x & Hx & Ex). apply wp_ret. split; [|lia].
      exists (S i), ys', o2. split; [lia|]. split; [lia|]. split; [exact HS'|]. split; [reflexivity|]. split.
      * eapply fl_placed_ext; [eapply (placed_stay nb bin xs HB ys' (Wf o2 u i) x)|].
        -- destruct HS' as (_ & HP & _). exact HP.
        -- exact HW'.
        -- rewrite Ex, Wf_eq. exact Hx.
        -- intros p Hp. rewrite Ex. unfold bump. rewrite Wf_eq. unfold Wf. destruct (Nat.eqb_spec p u); auto.
      * intros p Hp Hd. rewrite HK; auto. left. rewrite HD1; auto.
    + apply wp_ret. apply sect_wr; [exact Hlb|]. exists ys, (Wf o1 u (start (S u))). split; [exact HS|]. split; [|split; [|split]].
      * apply sect_ext. intros j Hj. unfold Wf. destruct (Nat.eqb_spec j lb) as [->|N]; [fold u; now rewrite Nat.eqb_refl|]. destruct (Nat.eqb_spec (sg j) u) as [E|]; auto. apply HS2 in E; auto. contradiction.
      * replace (start (S u)) with i by lia. exact HW.
      * apply Wf_eq.
      * intros p Hp Hd. unfold Wf. destruct (Nat.eqb_spec p u) as [->|]; auto. rewrite HD1; auto.
Qed.

(** * The bins in the reverse order *)
Lemma assign_reversed_wp : forall h m, 0 < nb -> (forall p, p < nb -> sg p = nb - 1 - p) ->
  wp (assign_reversed f nb (length cp) (map (Bins.cnt pb xs) (seq 0 nb)) (sect cp cq nb h)) (fun c m' => m' = m /\ c = cache start) m.
Proof.
  intros h m Hnb Hsg. rewrite pcnts. unfold assign_reversed. wstep. apply sect_wr; [lia|].
  apply wp_loop' with (I := fun '(k, c) m' => m' = m /\ k <= nb - 1 /\ exists h', c = sect cp cq nb h' /\ forall p, k <= p < nb -> h' p = Some (f + start (sg p))) (mu := fun '(k, _) => k); [|lia|].
  - split; auto. split; [lia|]. eexists. split; [reflexivity|]. intros p Hp. replace p with (nb - 1) by lia. cbv beta. rewrite Nat.eqb_refl, Hsg by lia. replace (nb - 1 - (nb - 1)) with 0 by lia. cbn [Bins.start]. now rewrite Nat.add_0_r.
  - intros [k c] m' (-> & Hk & h' & -> & Hh). destruct (Nat.ltb_spec 0 k) as [H|H].
    + wstep. eapply sect_rd; [lia|apply Hh; lia|]. wstep. apply wp_rd_seq; [lia|]. wstep. apply sect_wr; [lia|]. apply wp_ret. split; [|lia]. split; auto. split; [lia|]. eexists. split; [reflexivity|].
      intros p Hp. cbv beta. destruct (Nat.eqb_spec p (k - 1)) as [->|]; [|apply Hh; lia]. f_equal. assert (E : sg (k - 1) = S (sg k)) by (rewrite !Hsg by lia; lia). rewrite E, start_S. lia.
    + apply wp_ret. split; auto. apply sect_ext. intros j Hj. apply Hh. lia.
Qed.

Lemma fill_reversed_wp : forall m, 0 < nb -> (forall p, p < nb -> sg p = nb - 1 - p) -> m = m0 -> seg m f xs ->
  wp (fill_reversed proj ld dm f (f + n) nb (length cp) (map (Bins.cnt pb xs) (seq 0 nb)) (cache start)) (fun c m' => c = cache (fun p => start (S p)) /\ exists ys, state ys m' /\ blocked ys) m.
Proof.
  intros m Hnb Hsg Em HS. rewrite pcnts. unfold fill_reversed. wstep.
  apply wp_loop' with (I := fun '(ii, nx, c) m' => ii <= nb - 1 /\ nx = f + start (sg ii) /\ exists ys o, state ys m' /\ c = cache o /\ placed ys o /\ forall p, p < sg ii -> done_bin o p) (mu := fun '(ii, _, _) => ii); [|lia|].
  - split; [lia|]. assert (E : sg (nb - 1) = 0) by (rewrite Hsg by lia; lia). rewrite E. split; [cbn [Bins.start]; lia|]. exists xs, start. split. { split; [exact HS|]. split; auto. rewrite Em. apply only_refl. } split; [reflexivity|]. split; [|lia].
    intros p Hp. split; [rewrite start_S; lia|]. intros i x Hi. lia.
  - clear m Em HS. intros [[ii nx] c] m (Hii & -> & ys & o & HS & -> & HW & HD). destruct (Nat.ltb_spec 0 ii) as [H|H].
    + wstep. apply wp_rd_seq; [lia|]. wstep. replace (f + start (sg ii) + cnt (sg ii)) with (f + start (S (sg ii))) by (rewrite start_S; lia). eapply wp_mono; [apply (inner_wp ii ys o m); auto; lia|].
      cbv beta. intros c m' (ys' & o' & HS' & -> & HW' & HD' & HK). apply wp_ret. split; [|lia]. assert (E : sg (ii - 1) = S (sg ii)) by (rewrite !Hsg by lia; lia). split; [lia|]. split; [rewrite E; reflexivity|].
      exists ys', o'. split; [exact HS'|]. split; [reflexivity|]. split; auto. intros p Hp. rewrite E in Hp. assert (sg ii < nb) by (apply HS1; lia). destruct (Nat.eq_dec p (sg ii)) as [->|]; auto. apply HK; [lia|]. apply HD. lia.
    + apply wp_ret. replace ii with 0 in * by lia. assert (E : sg 0 = nb - 1) by (rewrite Hsg by lia; lia). replace (length cp) with (length cp + 0) by lia. apply sect_wr; [lia|]. split.
      * apply sect_ext. intros j Hj. destruct (Nat.eqb_spec j 0) as [->|]; [rewrite E|].
        -- f_equal. replace (S (nb - 1)) with nb by lia. now rewrite (start_all nb bin xs HB).
        -- assert (Hj1 : sg j < sg 0) by (rewrite !Hsg by lia; lia). specialize (HD _ Hj1). unfold done_bin in HD. now rewrite HD.
      * exists ys. split; auto. destruct HS as (_ & HP & _). apply (placed_blocked nb bin xs HB ys HP o (nb - 1) HW). intros p Hp Np. apply HD. lia.
Qed.
End Fill.

(** * The negative bins in the reverse order, then the others *)
Section Ends.
Context {A : Type} {fmt : format} (proj : A -> number fmt) (ld dm : Z) (nb fp : nat) (pb : A -> nat).
Implicit Types (m : mem A).
Context (xs : list A) (f : nat) (m0 : mem A) (cq : list (option nat)).
Hypothesis Hbin : forall x m, In x xs -> bin_of (div_type fmt) (fun x => cast (proj x)) ld dm x m = Ok (pb x) m.
Hypothesis HPB : forall x, In x xs -> pb x < nb.
Hypothesis Hfp : fp <= nb.
Hypothesis Hnb : 0 < nb.
Definition sg (p : nat) : nat := if p <? fp then fp - 1 - p else p.
Lemma sg_lt : forall p, p < fp -> sg p = fp - 1 - p.
Proof. intros p H. unfold sg. destruct (Nat.ltb_spec p fp); [auto|lia]. Qed.
Lemma sg_ge : forall p, fp <= p -> sg p = p.
Proof. intros p H. unfold sg. destruct (Nat.ltb_spec p fp); [lia|auto]. Qed.
Lemma sg_range : forall p, p < nb -> sg p < nb.
Proof. intros p H. unfold sg. destruct (Nat.ltb_spec p fp); lia. Qed.
Lemma sg_inj : forall p q, p < nb -> q < nb -> sg p = sg q -> p = q.
Proof. intros p q Hp Hq. unfold sg. destruct (Nat.ltb_spec p fp), (Nat.ltb_spec q fp); lia. Qed.
Local Notation bin := (bin pb sg).
Local Notation n := (length xs).
Local Notation cnt := (cnt bin xs).
Local Notation start := (start bin xs).
Local Notation placed := (placed nb bin xs).
Local Notation blocked := (blocked bin xs).
Local Notation state := (state xs f m0).
Local Notation cache o := (sect [] cq nb (fun p => Some (f + o (sg p)))).

Lemma nil_rd : forall h p v (Q : nat -> mem A -> Prop) m, p < nb -> h p = Some v -> Q v m -> wp (rd_init (sect [] cq nb h) p) Q m.
Proof. intros h p v Q m. exact (sect_rd [] cq nb h p v Q m). Qed.
Lemma nil_wr : forall h p v (Q : list (option nat) -> mem A -> Prop) m, p < nb -> Q (sect [] cq nb (fun j => if j =? p then v else h j)) m -> wp (wr (sect [] cq nb h) p v) Q m.
Proof. intros h p v Q m. exact (sect_wr [] cq nb h p v Q m). Qed.

(** The bins that satisfy [ok] have their first position and their end; the others, their size. *)
Definition half (ok : nat -> Prop) (s : nat -> nat) (h : nat -> option nat) : Prop :=
  (forall p, p < nb -> ok p -> s p = start (S (sg p)) /\ h p = Some (f + start (sg p))) /\ (forall p, p < nb -> ~ ok p -> s p = cnt (sg p)).

Lemma assign_ends_wp : forall h m,
  wp (assign_ends f nb fp (map (Bins.cnt pb xs) (seq 0 nb)) (sect [] cq nb h)) (fun '(v, c) m' => m' = m /\ v = map (fun p => start (S (sg p))) (seq 0 nb) /\ c = cache start) m.
Proof.
  intros h m. rewrite (pcnts nb pb sg xs HPB sg_inj). unfold assign_ends. wstep.
  eapply wp_mono with (Q := fun '(v, c) m' => m' = m /\ exists s h', v = map s (seq 0 nb) /\ c = sect [] cq nb h' /\ half (fun p => p <= fp) s h').
  - destruct (Nat.ltb_spec 0 fp) as [H0|H0].
    + wstep. apply nil_wr; [lia|]. wstep.
      apply wp_loop' with (I := fun '(k, v, c) m' => m' = m /\ k <= fp - 1 /\ exists s h', v = map s (seq 0 nb) /\ c = sect [] cq nb h' /\ half (fun p => k <= p < fp) s h') (mu := fun '(k, _, _) => k); [|lia|].
      * split; auto. split; auto. eexists _, _. split; [reflexivity|]. split; [reflexivity|]. split.
        -- intros p Hp Hk. replace p with (fp - 1) by lia. rewrite Nat.eqb_refl, sg_lt by lia. replace (fp - 1 - (fp - 1)) with 0 by lia. cbn [Bins.start]. split; [lia|f_equal; lia].
        -- intros p Hp Hk. reflexivity.
      * intros [[k v] c] m' (-> & Hk & s & h' & -> & -> & H1 & H2). destruct (Nat.ltb_spec 0 k) as [H|H].
        -- wstep. apply wp_rd_seq; [lia|]. wstep. apply nil_wr; [lia|]. wstep. apply wp_rd_seq; [lia|]. wstep. apply wp_wr_seq; [lia|]. apply wp_ret. split; [|lia]. split; auto. split; [lia|]. eexists _, _. split; [reflexivity|]. split; [reflexivity|].
           assert (E : sg (k - 1) = S (sg k)) by (rewrite !sg_lt by lia; lia). destruct (H1 k) as [Sk _]; try lia. pose proof (H2 (k - 1) ltac:(lia) ltac:(lia)) as Sk1. split.
           ++ intros p Hp Hkp. cbv beta. destruct (Nat.eqb_spec p (k - 1)) as [->|]; [|apply H1; lia]. rewrite E, Sk, Sk1, E, (start_S _ _ (S (sg k))). split; [lia|reflexivity].
           ++ intros p Hp Hkp. destruct (Nat.eqb_spec p (k - 1)) as [->|]; [lia|]. apply H2; lia.
        -- apply wp_ret. replace k with 0 in * by lia. destruct (Nat.ltb_spec fp nb) as [Hf|Hf].
           ++ wstep. apply wp_rd_seq; [lia|]. wstep. apply nil_wr; [lia|]. wstep. apply wp_rd_seq; [lia|]. wstep. apply wp_wr_seq; [lia|]. apply wp_ret. split; auto. eexists _, _. split; [reflexivity|]. split; [reflexivity|].
              destruct (H1 0) as [S0 _]; try lia. assert (E0 : S (sg 0) = fp) by (rewrite sg_lt by lia; lia). rewrite E0 in S0. pose proof (H2 fp ltac:(lia) ltac:(lia)) as Sf. pose proof (sg_ge fp (le_n _)) as Ef. rewrite Ef in Sf. split.
              ** intros p Hp Hkp. cbv beta. destruct (Nat.eqb_spec p fp) as [->|]; [|apply H1; lia]. rewrite Ef, S0, Sf, start_S. split; [lia|reflexivity].
              ** intros p Hp Hkp. destruct (Nat.eqb_spec p fp) as [->|]; [lia|]. apply H2; lia.
           ++ apply wp_ret. split; auto. exists s, h'. split; auto. split; auto. split; [intros p Hp Hkp; apply H1; lia|intros p Hp Hkp; lia].
    + wstep. apply nil_wr; [lia|]. apply wp_ret. split; auto. eexists _, _. split; [reflexivity|]. split; [reflexivity|]. split.
      * intros p Hp Hk. replace p with 0 by lia. rewrite Nat.eqb_refl, sg_ge by lia. cbn [Bins.start]. split; [lia|f_equal; lia].
      * intros. reflexivity.
  - intros [v c] m' (-> & s & h' & -> & -> & HH).
    apply wp_loop' with (I := fun '(u, v, c) m' => m' = m /\ fp <= u /\ (u <= nb - 1 \/ u = fp) /\ exists s h', v = map s (seq 0 nb) /\ c = sect [] cq nb h' /\ half (fun p => p <= u) s h') (mu := fun '(u, _, _) => nb - u); [|lia|].
    + split; auto. split; auto. split; auto. exists s, h'. auto.
    + clear s h' HH h. intros [[u v] c] m' (-> & Hu & Hu2 & s & h' & -> & -> & H1 & H2). destruct (Nat.ltb_spec u (nb - 1)) as [H|H].
      * wstep. apply wp_rd_seq; [lia|]. wstep. apply nil_wr; [lia|]. wstep. apply wp_rd_seq; [lia|]. wstep. apply wp_wr_seq; [lia|]. apply wp_ret. split; [|lia]. split; auto. split; [lia|]. split; [lia|]. eexists _, _. split; [reflexivity|]. split; [reflexivity|].
        destruct (H1 u) as [Su _]; try lia. pose proof (H2 (u + 1) ltac:(lia) ltac:(lia)) as Su1. rewrite sg_ge in Su, Su1 by lia. replace (S u) with (u + 1) in Su by lia. split.
        -- intros p Hp Hkp. cbv beta. destruct (Nat.eqb_spec p (u + 1)) as [->|]; [|apply H1; lia]. rewrite (sg_ge (u + 1)), Su, Su1, (start_S _ _ (u + 1)) by lia. split; [lia|reflexivity].
        -- intros p Hp Hkp. destruct (Nat.eqb_spec p (u + 1)) as [->|]; [lia|]. apply H2; lia.
      * apply wp_ret. split; auto. split; [apply map_seq_ext; intros j Hj; apply H1; lia|apply sect_ext; intros j Hj; apply H1; lia].
Qed.

Lemma fill_ends_wp : forall m, m = m0 -> seg m f xs ->
  wp (fill_ends proj ld dm f (f + n) nb (map (fun p => start (S (sg p))) (seq 0 nb)) (cache start)) (fun c m' => c = cache (fun p => start (S p)) /\ exists ys, state ys m' /\ blocked ys) m.
Proof.
  intros m Em HS. unfold fill_ends.
  apply wp_loop' with (I := fun '(u, c) m' => u <= nb /\ exists ys o, state ys m' /\ c = cache o /\ placed ys o /\ forall p, p < u -> done_bin pb sg xs o (sg p)) (mu := fun '(u, _) => nb - u); [|lia|].
  - split; [lia|]. exists xs, start. split. { split; [exact HS|]. split; auto. rewrite Em. apply only_refl. } split; [reflexivity|]. split; [|lia].
    intros p Hp. split; [rewrite start_S; lia|]. intros i x Hi. lia.
  - clear m Em HS. intros [u c] m (Hu & ys & o & HS & -> & HW & HD). destruct (Nat.ltb_spec u nb) as [H|H].
    + wstep. apply wp_rd_seq; [lia|]. wstep. eapply wp_mono; [apply (inner_wp proj ld dm nb pb sg xs f m0 [] cq Hbin HPB sg_range sg_inj u ys o m); auto|].
      cbv beta. intros c m' (ys' & o' & HS' & -> & HW' & HD' & HK). apply wp_ret. split; [|lia]. split; [lia|].
      exists ys', o'. split; [exact HS'|]. split; [reflexivity|]. split; auto. intros p Hp. destruct (Nat.eq_dec p u) as [->|]; auto. apply HK; [apply sg_range; lia|]. apply HD. lia.
    + apply wp_ret. split.
      * apply sect_ext. intros j Hj. rewrite (HD j) by lia. reflexivity.
      * exists ys. split; auto. destruct HS as (_ & HP & _). apply (placed_blocked nb bin xs (HB nb pb sg xs HPB sg_range) ys HP o nb HW). intros p Hp Np.
        assert (Ep : p = sg (sg p)). { unfold sg. destruct (Nat.ltb_spec p fp); [destruct (Nat.ltb_spec (fp - 1 - p) fp); lia|]. destruct (Nat.ltb_spec p fp); lia. } rewrite Ep. apply HD. pose proof (sg_range p Hp). lia.
Qed.
End Ends.
