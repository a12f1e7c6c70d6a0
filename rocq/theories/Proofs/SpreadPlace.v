(** spreadsort on strings: the elements are put in their bins. *)
From Coq Require Import List Arith ZArith Lia Permutation Bool.
From Verif Require Import Spec.Order Lang.Mem Spec.Sorts Proofs.Wp Proofs.OrderLib Model.Indirect Proofs.Indirect Proofs.Search Proofs.Regions Proofs.Bins Model.Counting Model.Ska Proofs.SkaLib Model.Spread Proofs.SpreadBins
  Model.SpreadString.
Import ListNotations.
Local Open Scope nat_scope.
Local Arguments nth_error : simpl never.
Local Arguments upd : simpl never.
Local Arguments Nat.leb : simpl never.
Local Arguments Nat.ltb : simpl never.
Local Arguments Nat.eqb : simpl never.
Local Arguments Nat.sub : simpl never.
Local Arguments Nat.pow : simpl never.
Local Arguments loop : simpl never.
Local Opaque seq bin_count.

Section Place.
Context {A : Type} (cs : nat) (bin : A -> nat).
Local Notation nb := (bin_count cs + 1).
Implicit Types (m : mem A).
Context (xs : list A) (f : nat) (m0 : mem A) (cp cq : list (option nat)).
Hypothesis HB : forall x, In x xs -> bin x < nb.
Local Notation n := (length xs).
Local Notation cnt := (cnt bin xs).
Local Notation start := (start bin xs).
Local Notation placed := (placed nb bin xs).
Local Notation blocked := (blocked bin xs).
Local Notation slack := (slack nb bin xs).
Local Notation state := (state xs f m0).
Local Notation cache o := (sect cp cq nb (fun p => Some (f + o p))).

Lemma pl_start_le : forall p, p <= nb -> start p <= n.
Proof. intros p Hp. rewrite <- (start_all nb bin xs HB). now apply start_mono. Qed.
Lemma pl_placed_ext : forall ys w w', placed ys w -> (forall p, p < nb -> w' p = w p) -> placed ys w'.
Proof. intros ys w w' H E p Hp. rewrite E by auto. apply (H p Hp). Qed.
Lemma pl_slack_ext : forall w w', (forall p, p < nb -> w' p = w p) -> slack w' = slack w.
Proof. intros w w' E. unfold Bins.slack. f_equal. apply map_seq_ext. intros j Hj. now rewrite E. Qed.
Lemma pl_cache_bump : forall o p, cache (bump o p) = sect cp cq nb (fun j => if j =? p then Some (S (f + o p)) else Some (f + o j)).
Proof. intros o p. apply sect_ext. intros j Hj. unfold bump. destruct (Nat.eqb_spec j p) as [->|N]; auto. Qed.

Lemma count_strings_wp : forall (target : A -> M A nat) m, (forall x m, In x xs -> target x m = Ok (bin x) m) -> seg m f xs ->
  wp (count_strings cs target f (f + n)) (fun v m' => m' = m /\ v = map cnt (seq 0 nb)) m.
Proof.
  intros target m Ht HS. unfold count_strings.
  apply wp_loop' with (I := fun '(it, v) m' => m' = m /\ exists i, it = f + i /\ i <= n /\ v = map (Bins.cnt bin (firstn i xs)) (seq 0 nb)) (mu := fun '(it, _) => f + n - it); [|lia|].
  - split; auto. exists 0. split; [lia|]. split; [lia|]. clear. generalize (nb). intros k. induction k as [|k IH]; auto. rewrite seq_S, map_app, <- IH. cbn [map plus firstn]. unfold Bins.cnt. cbn [filter length].
    clear IH. induction k as [|k IH]; auto. cbn [repeat app]. now rewrite <- IH.
  - intros [it v] m' (-> & i & -> & Hi & ->). destruct (Nat.eqb_spec (f + i) (f + n)) as [E|E].
    + apply wp_ret. split; auto. replace i with n by lia. now rewrite firstn_all.
    + destruct (nth_some _ xs i) as (x & Hx); [lia|]. assert (Hin : In x xs) by (eapply nth_error_In; eauto). pose proof (HB x Hin).
      wstep. eapply wp_get; [eapply seg_get; eauto|]. wstep. unfold wp at 1. rewrite Ht by auto. wstep. apply wp_rd_seq; auto. wstep. apply wp_wr_seq; auto.
      apply wp_ret. split; [|lia]. split; auto. exists (S i). split; [lia|]. split; [lia|]. apply map_seq_ext. intros j Hj.
      rewrite (firstn_snoc _ xs i x) by auto. unfold Bins.cnt. rewrite !filter_app, !app_length. cbn [filter]. rewrite (Nat.eqb_sym (bin x) j). destruct (Nat.eqb_spec j (bin x)); subst; cbn [length]; lia.
Qed.

Lemma assign_wp : forall h m, 
  wp (assign_bins f nb (length cp) (map cnt (seq 0 nb)) (sect cp cq nb h)) (fun c m' => m' = m /\ c = cache start) m.
Proof.
  intros h m. unfold assign_bins. wstep. replace (length cp) with (length cp + 0) at 1 by lia. apply sect_wr; [lia|].
  apply wp_loop' with (I := fun '(u, c) m' => m' = m /\ u <= nb - 1 /\ exists h', c = sect cp cq nb h' /\ forall p, p <= u -> h' p = Some (f + start p)) (mu := fun '(u, _) => nb - u); [|lia|].
  - split; auto. split; [lia|]. eexists. split; [reflexivity|]. intros p Hp. replace p with 0 by lia. cbn [Bins.start]. now rewrite Nat.add_0_r.
  - intros [u c] m' (-> & Hu & h' & -> & Hh). destruct (Nat.ltb_spec u (nb - 1)) as [H|H].
    + wstep. eapply sect_rd; [lia|apply Hh; lia|]. wstep. apply wp_rd_seq; [lia|]. wstep. apply sect_wr; [lia|]. apply wp_ret. split; [|lia]. split; auto. split; [lia|]. eexists. split; [reflexivity|].
      intros p Hp. cbv beta. destruct (Nat.eqb_spec p (u + 1)) as [->|]; [|apply Hh; lia]. f_equal. replace (u + 1) with (S u) by lia. rewrite start_S. lia.
    + apply wp_ret. split; auto. apply sect_ext. intros j Hj. apply Hh. lia.
Qed.

(** One position receives an element of its bin. *)
Lemma place_one_wp : forall (target : A -> M A nat) u i o ys m, u < nb -> start u <= i < start (S u) ->
  (forall x m, In x xs -> bin x = u \/ o (bin x) <> start (S (bin x)) -> target x m = Ok (bin x) m) -> state ys m -> placed ys (Wf o u i) ->
  wp (loop (S (f + n - f)) (fun cache =>
        let* x := get (f + i) in
        let* target_bin := target x in
        if target_bin =? u then ret (inr cache) else
        let* b := rd_init cache (length cp + target_bin) in
        swap (f + i) b ;;
        let* cache := wr cache (length cp + target_bin) (Some (S b)) in
        ret (inl cache)) (cache o))
    (fun c m' => exists ys' o', state ys' m' /\ c = cache o' /\ placed ys' (Wf o' u i) /\ (forall p, p < nb -> o p = start (S p) \/ p = u -> o' p = o p) /\
       exists x, nth_error ys' i = Some x /\ bin x = u) m.
Proof.
  intros target u i o ys m Hu Hi Ht HS HW.
  apply wp_loop_k with (k := slack (Wf o u i)) (I := fun q c m' => exists ys' o', state ys' m' /\ c = cache o' /\ placed ys' (Wf o' u i) /\ (forall p, p < nb -> o p = start (S p) \/ p = u -> o' p = o p) /\ slack (Wf o' u i) = q).
  - exists ys, o. auto 6.
  - assert (slack (Wf o u i) <= n) by (eapply slack_init; eauto). lia.
  - clear ys m HS HW. intros q c m (ys & o' & HS & -> & HW & HK & HQ).
    assert (HP : Permutation xs ys) by (destruct HS as (_ & HP & _); exact HP).
    assert (Hly : length ys = n) by (symmetry; now apply Permutation_length). pose proof (pl_start_le (S u) ltac:(lia)) as Hun.
    destruct (nth_some _ ys i) as (x & Hx); [lia|]. assert (Hxin : In x xs) by (eapply Permutation_in; [symmetry; exact HP|eapply nth_error_In; eauto]). pose proof (HB x Hxin) as Hbx.
    assert (Ho' : forall p, p < nb -> p <> u -> start p <= o' p <= start (S p)). { intros p Hp Np. destruct (HW p Hp) as [H _]. now rewrite Wf_ne in H. }
    assert (Hout : forall r, r < nb -> ~ (start r <= i < Wf o' u i r)).
    { intros r Hr H. assert (r = u) as ->; [|rewrite Wf_eq in H; lia]. destruct (Nat.eq_dec r u) as [|Nr]; auto. rewrite Wf_ne in H by auto. specialize (Ho' r Hr Nr). apply (region_uniq bin xs i); lia. }
    pose proof (placed_room nb bin xs HB ys HP _ _ _ HW Hx (Hout _ Hbx)) as HR.
    assert (HT : target x m = Ok (bin x) m). { apply Ht; auto. destruct (Nat.eq_dec (bin x) u) as [|N]; auto. right. intros E. rewrite Wf_ne in HR by auto. rewrite HK in HR by auto. lia. }
    wstep. eapply wp_get; [destruct HS as (HSg & _); eapply seg_get; eauto|]. wstep. unfold wp at 1. rewrite HT.
    destruct (Nat.eqb_spec (bin x) u) as [E|E]. { apply wp_ret. exists ys, o'. split; [exact HS|]. split; [reflexivity|]. split; auto. split; auto. exists x. auto. }
    rewrite Wf_ne in HR by auto. pose proof (pl_start_le (S (bin x)) ltac:(lia)) as Hbn. destruct (Ho' _ Hbx E) as [Hb1 _].
    destruct (nth_some _ ys (o' (bin x))) as (y & Hy); [lia|].
    assert (Nib : i <> o' (bin x)). { intros EE. apply E. apply (region_uniq bin xs i); rewrite ?EE; lia. }
    wstep. eapply sect_rd; [exact Hbx|reflexivity|]. wstep. destruct HS as (HSg & _ & HO). eapply wp_swap_seg; eauto. intros m' HS' HO'.
    wstep. apply sect_wr; [exact Hbx|]. rewrite <- pl_cache_bump. apply wp_ret. exists (slack (Wf (bump o' (bin x)) u i)). split.
    + rewrite <- HQ. rewrite (pl_slack_ext (bump (Wf o' u i) (bin x)) (Wf (bump o' (bin x)) u i)) by (intros p Hp; now apply (Wf_bump nb)). apply slack_bump; auto. now rewrite Wf_ne.
    + exists (upd (o' (bin x)) x (upd i y ys)), (bump o' (bin x)). split; [|split; [reflexivity|split; [|split; auto]]].
      * split; auto. split; [rewrite HP; symmetry; now apply swap_perm|]. eapply only_trans; [exact HO|]. now rewrite <- Hly.
      * assert (HPS : placed (upd (Wf o' u i (bin x)) x (upd i y ys)) (bump (Wf o' u i) (bin x))). { apply placed_swap; auto. rewrite Wf_ne; auto. }
        rewrite Wf_ne in HPS by auto. eapply pl_placed_ext; [exact HPS|]. intros p Hp. now apply (Wf_bump nb).
      * intros p Hp Hd. unfold bump. destruct (Nat.eqb_spec p (bin x)) as [Ep|]; [|now apply HK]. exfalso. destruct Hd as [Hd|Hd]; [|congruence]. rewrite <- Ep, (HK p) in HR by auto. lia.
Qed.

Lemma place_strings_wp : forall (target : A -> M A nat) u ys o m, u < nb ->
  (forall x m, In x xs -> bin x = u \/ o (bin x) <> start (S (bin x)) -> target x m = Ok (bin x) m) -> state ys m -> placed ys o ->
  wp (place_strings target f (f + n) (length cp) u (f + start (S u)) (cache o))
    (fun c m' => exists ys' o', state ys' m' /\ c = cache o' /\ placed ys' o' /\ o' u = start (S u) /\ forall p, p < nb -> o p = start (S p) -> o' p = start (S p)) m.
Proof.
  intros target u ys o m Hu Ht HS HW. unfold place_strings. pose proof (pl_start_le (S u) ltac:(lia)) as Hun. destruct (HW u Hu) as [Hou _].
  wstep. eapply sect_rd; [exact Hu|reflexivity|]. wstep.
  apply wp_loop' with (I := fun '(cur, c) m' => exists i ys' o', cur = f + i /\ o u <= i <= start (S u) /\ state ys' m' /\ c = cache o' /\ placed ys' (Wf o' u i) /\ forall p, p < nb -> o p = start (S p) -> o' p = o p)
    (mu := fun '(cur, _) => f + start (S u) - cur).
  - exists (o u), ys, o. split; auto. split; [lia|]. split; [exact HS|]. split; [reflexivity|]. split; auto. eapply pl_placed_ext; [exact HW|]. intros p Hp. unfold Wf. destruct (Nat.eqb_spec p u) as [->|]; auto.
  - lia.
  - clear ys HS HW m. intros [cur c] m (i & ys & o1 & -> & Hi & HS & -> & HW & HD1). destruct (Nat.ltb_spec (f + i) (f + start (S u))) as [Hlt|Hge].
    + wstep. eapply wp_mono; [apply (place_one_wp target u i o1 ys); auto; [lia|]|].
      { intros x m1 Hx Hd. apply Ht; auto. destruct Hd as [Hd|Hd]; auto. right. intros E. apply Hd. rewrite HD1; auto. }
      cbv beta. intros c m' (ys' & o2 & HS' & -> & HW' & HK & x & Hx & Ex). apply wp_ret. split; [|lia].
      exists (S i), ys', o2. split; [lia|]. split; [lia|]. split; [exact HS'|]. split; [reflexivity|]. split.
      * eapply pl_placed_ext; [eapply (placed_stay nb bin xs HB ys' (Wf o2 u i) x)|].
        -- destruct HS' as (_ & HP & _). exact HP.
        -- exact HW'.
        -- rewrite Ex, Wf_eq. exact Hx.
        -- intros p Hp. rewrite Ex. unfold bump. rewrite Wf_eq. unfold Wf. destruct (Nat.eqb_spec p u); auto.
      * intros p Hp Hd. rewrite HK; auto. left. rewrite HD1; auto.
    + apply wp_ret. apply sect_wr; [exact Hu|]. exists ys, (Wf o1 u (start (S u))). split; [exact HS|]. split; [|split; [|split]].
      * apply sect_ext. intros j Hj. unfold Wf. destruct (Nat.eqb_spec j u) as [->|N]; auto.
      * replace (start (S u)) with i by lia. exact HW.
      * apply Wf_eq.
      * intros p Hp Hd. unfold Wf. destruct (Nat.eqb_spec p u) as [->|]; auto. rewrite HD1; auto.
Qed.

Lemma find_last_bin_wp : forall shift m, shift <= 1 -> 0 < bin_count cs ->
  wp (find_last_bin cs shift (map cnt (seq 0 nb))) (fun lb m' => m' = m /\ lb < bin_count cs /\ forall p, lb < p < bin_count cs -> cnt (p + shift) = 0) m.
Proof.
  intros shift m Hsh Hbc. unfold find_last_bin.
  apply wp_loop' with (I := fun lb m' => m' = m /\ lb < bin_count cs /\ forall p, lb < p < bin_count cs -> cnt (p + shift) = 0) (mu := fun lb => lb); [|lia|].
  - split; auto. split; [lia|]. intros p Hp. lia.
  - intros lb m' (-> & Hlb & Hz). destruct (Nat.eqb_spec lb 0) as [E|E]; [apply wp_ret; auto|]. wstep. apply wp_rd_seq; [lia|]. destruct (Nat.eqb_spec (cnt (lb + shift)) 0) as [E0|E0]; apply wp_ret; auto.
    split; [|lia]. split; auto. split; [lia|]. intros p Hp. destruct (Nat.eq_dec p lb) as [->|]; auto. apply Hz. lia.
Qed.

Lemma place_chars_wp : forall (target : A -> M A nat) shift lb ys o m, shift <= 1 -> lb < bin_count cs ->
  (forall x m, In x xs -> shift <= bin x < shift + lb \/ o (bin x) <> start (S (bin x)) -> target x m = Ok (bin x) m) -> state ys m -> placed ys o ->
  wp (place_chars target shift f (f + n) (length cp) lb (f + start shift) (map cnt (seq 0 nb)) (cache o))
    (fun c m' => exists ys' o', state ys' m' /\ c = cache o' /\ placed ys' o' /\ (forall p, shift <= p < shift + lb -> o' p = start (S p)) /\ forall p, p < nb -> o p = start (S p) -> o' p = start (S p)) m.
Proof.
  intros target shift lb ys o m Hsh Hlb Ht HS HW. unfold place_chars.
  apply wp_loop' with (I := fun '(u, nx, c) m' => u <= lb /\ nx = f + start (u + shift) /\ exists ys' o', state ys' m' /\ c = cache o' /\ placed ys' o' /\ (forall p, shift <= p < shift + u -> o' p = start (S p)) /\ forall p, p < nb -> o p = start (S p) -> o' p = start (S p))
    (mu := fun '(u, _, _) => lb - u); [|lia|].
  - split; [lia|]. split; auto. exists ys, o. split; [exact HS|]. split; auto. split; auto. split; auto. intros p Hp. lia.
  - clear ys m HS HW. intros [[u nx] c] m (Hu & -> & ys & o1 & HS & -> & HW & HD & HK). destruct (Nat.ltb_spec u lb) as [H|H].
    + wstep. apply wp_rd_seq; [lia|]. wstep. replace (f + start (u + shift) + cnt (u + shift)) with (f + start (S (u + shift))) by (rewrite start_S; lia).
      eapply wp_mono; [apply (place_strings_wp target (u + shift) ys o1 m); auto; [lia|]|].
      { intros x m1 Hx Hd. apply Ht; auto. destruct Hd as [Hd|Hd]; [left; lia|]. right. intros E. apply Hd. apply HK; auto. }
      cbv beta. intros c m' (ys' & o' & HS' & -> & HW' & Hu' & HK'). apply wp_ret. split; [|lia]. split; [lia|]. split; [reflexivity|]. exists ys', o'. split; [exact HS'|]. split; auto. split; auto. split; auto.
      intros p Hp. destruct (Nat.eq_dec p (u + shift)) as [->|]; auto. apply HK'; [lia|]. apply HD. lia.
    + apply wp_ret. exists ys, o1. split; [exact HS|]. split; auto. split; auto. split; auto. intros p Hp. apply HD. lia.
Qed.
End Place.
