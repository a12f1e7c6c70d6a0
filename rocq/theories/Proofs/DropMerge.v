(** Drop-merge sort and split sort. *)
From Coq Require Import List Arith Lia Permutation Bool.
From Verif Require Import Spec.Order Lang.Mem Spec.Sorts Proofs.Wp Proofs.OrderLib Model.Basic Proofs.Basic
  Model.Insertion Proofs.Insertion Proofs.IndexLib Model.Indirect Proofs.Indirect Model.DropMerge.
Import ListNotations.

Lemma snoc_inv : forall X (l : list X) n, length l = S n -> exists l' x, l = l' ++ [x] /\ length l' = n.
Proof.
  intros X l n H. destruct l as [|a l] using rev_ind; [discriminate|]. rewrite app_length in H. simpl in H. exists l, a. split; auto. lia.
Qed.

Section DropMerge.
Context {A T : Type} (comp : T -> T -> bool) (proj : A -> T).
Notation lt := (by_proj comp proj).
(** [ord] stands for "the comparator is a strict weak order", or for [False]. *)
Variable ord : Prop.
Hypothesis HORD : ord -> strict_weak_order lt.
Definition sorting_rel (v w : list A) : Prop := Permutation v w /\ (ord -> sorted lt w).
Variable triv : bool.
Notation solid := (Forall (fun c : cell A => c <> Raw)).

Definition left (y : A) : cell A := if triv then Val y else Moved.
Lemma left_solid : forall y, left y <> Raw.
Proof. intros. unfold left. destruct triv; discriminate. Qed.

Lemma mv_at : forall l1 l2 a i (Q : A -> mem A -> Prop), i = length l1 ->
  Q a (l1 ++ left a :: l2) -> wp (mv triv i) Q (l1 ++ Val a :: l2).
Proof. intros. unfold mv, left in *. destruct triv; [apply wp_get_at|apply wp_take_at]; auto. Qed.

Lemma undo_wp : forall d1 d2 P g2 R read (Q : nat * list A -> mem A -> Prop),
  length g2 = length d1 -> solid g2 -> (triv = true -> g2 = map Val (rev d1)) -> read = length P + length d1 ->
  Q (length P, d2) (P ++ map Val (rev d1) ++ R) -> wp (undo triv (length d1) read (d1 ++ d2)) Q (P ++ g2 ++ R).
Proof.
  induction d1 as [|x d1 IH]; intros d2 P g2 R read Q HL HS HT Hr HQ.
  - destruct g2; [|discriminate]. simpl in *. apply wp_ret. subst read. now rewrite Nat.add_0_r.
  - cbn [length undo app]. destruct (snoc_inv _ g2 (length d1) HL) as (g & c & -> & HLg).
    apply Forall_app in HS as [HS1 HS2]. inversion HS2 as [|? ? Hc _]; subst.
    assert (triv = true -> g = map Val (rev d1) /\ c = Val x) as HT'.
    { intros Ht. specialize (HT Ht). cbn [rev] in HT. rewrite map_app in HT. apply app_inj_tail in HT. auto. }
    apply wp_bind. apply wp_mono with (Q := fun _ m => m = P ++ g ++ (Val x :: R)).
    + destruct triv.
      * apply wp_ret. destruct (HT' eq_refl) as [_ ->]. solve_app.
      * reshape ((P ++ g) ++ c :: R). apply wp_put_at; auto. { lens. } solve_app.
    + intros u m ->. apply IH; auto. { intros Ht. apply HT'; auto. } { simpl. lia. }
      replace (P ++ map Val (rev d1) ++ Val x :: R) with (P ++ map Val (rev (x :: d1)) ++ R); auto. simpl. solve_app.
Qed.

Section Drop.
Variables (pre post : mem A) (xs : list A).
Notation begin := (length pre).
Notation end_ := (length pre + length xs).

Definition drop_inv (s : list A * nat * nat * nat) (m : mem A) : Prop :=
  let '(dropped, num, write, read) := s in
  exists good gap rem, m = pre ++ map Val good ++ gap ++ map Val rem ++ post /\
    write = length pre + length good /\ read = write + length gap /\ length gap = length dropped /\ num <= length dropped /\ num <= 8 /\
    Permutation xs (good ++ dropped ++ rem) /\ solid gap /\
    (triv = true -> exists g, gap = g ++ map Val (rev (firstn num dropped))) /\ (ord -> sorted lt good).

Definition drop_measure (s : list A * nat * nat * nat) : nat :=
  let '(dropped, num, write, read) := s in
  (length xs - (length dropped - num)) * S (length xs) + (end_ - read).

Lemma drop_step_wp : forall s m, drop_inv s m -> snd s < end_ ->
  wp (drop_step comp proj triv begin s) (fun s' m' => drop_inv s' m' /\ drop_measure s' < drop_measure s /\ snd s' <= end_) m.
Proof.
  intros [[[dropped num] write] read] m (good & gap & rem & -> & Hw & Hr & HLg & Hn & Hn8 & HP & HS & HT & HG) Hlt. cbn [snd] in Hlt.
  assert (length xs = length good + length dropped + length rem) as HLx. { apply Permutation_length in HP. rewrite !app_length in HP. lia. }
  destruct rem as [|y rem]. { simpl in HLx. lia. }
  cbn [length] in HLx.
  unfold drop_step. apply wp_bind.
  apply wp_mono with (Q := fun c m => m = pre ++ map Val good ++ gap ++ map Val (y :: rem) ++ post /\
    if (c : bool) then exists g b, good = g ++ [b] /\ lt y b = true else good = [] \/ exists g b, good = g ++ [b] /\ lt y b = false).
  { destruct (Nat.eqb_spec begin write) as [E|E].
    - apply wp_ret. split; auto. left. destruct good; auto. simpl in *. lia.
    - destruct good as [|b g] using rev_ind; [simpl in *; lia|]. clear IHg. lens.
      eapply wp_less_at with (x := y) (y := b).
      + replace (pre ++ map Val (g ++ [b]) ++ gap ++ map Val (y :: rem) ++ post) with ((pre ++ map Val (g ++ [b]) ++ gap) ++ Val y :: map Val rem ++ post) by solve_app.
        apply nth_at. lens.
      + replace (pre ++ map Val (g ++ [b]) ++ gap ++ map Val (y :: rem) ++ post) with ((pre ++ map Val g) ++ Val b :: gap ++ map Val (y :: rem) ++ post) by solve_app.
        apply nth_at. lens.
      + split; auto. destruct (lt y b) eqn:Eyb; [|right]; eauto. }
  intros c m [-> Hc]. destruct c.
  - destruct Hc as (good' & b & -> & Hyb). rewrite app_length in *. cbn [length] in *. apply wp_bind.
    apply wp_mono with (Q := fun d m => m = pre ++ map Val (good' ++ [b]) ++ gap ++ map Val (y :: rem) ++ post /\
      if (d : bool) then num = 0 /\ exists g a, good' = g ++ [a] /\ lt y a = false else True).
    { destruct (Nat.eqb_spec num 0) as [En|En]; [|apply wp_ret; split; auto].
      destruct (Nat.eqb_spec write (S begin)) as [Ew|Ew]; [apply wp_ret; split; auto|]. cbn [andb negb].
      destruct good' as [|a g] using rev_ind; [simpl in *; lia|]. clear IHg. lens. apply wp_bind.
      eapply wp_less_at with (x := y) (y := a).
      + replace (pre ++ map Val ((g ++ [a]) ++ [b]) ++ gap ++ map Val (y :: rem) ++ post) with ((pre ++ map Val ((g ++ [a]) ++ [b]) ++ gap) ++ Val y :: map Val rem ++ post) by solve_app.
        apply nth_at. lens.
      + replace (pre ++ map Val ((g ++ [a]) ++ [b]) ++ gap ++ map Val (y :: rem) ++ post) with ((pre ++ map Val g) ++ Val a :: Val b :: gap ++ map Val (y :: rem) ++ post) by solve_app.
        apply nth_at. lens.
      + apply wp_ret. split; auto. destruct (lt y a) eqn:Eya; cbn [negb]; auto. split; auto. eauto. }
    intros d m [-> Hd]. destruct d.
    + destruct Hd as (-> & g & a & -> & Hya). rewrite app_length in *. cbn [length] in *.
      reshape ((pre ++ map Val (g ++ [a])) ++ Val b :: gap ++ map Val (y :: rem) ++ post). apply wp_bind, mv_at. { lens. }
      reshape ((pre ++ map Val (g ++ [a]) ++ left b :: gap) ++ Val y :: map Val rem ++ post). apply wp_bind, mv_at. { lens. }
      reshape ((pre ++ map Val (g ++ [a])) ++ left b :: gap ++ left y :: map Val rem ++ post). apply wp_bind, wp_put_at; [lens|apply left_solid|].
      apply wp_ret. unfold drop_inv, drop_measure. cbn [snd length]. split; [|lia].
      exists ((g ++ [a]) ++ [y]), (gap ++ [left y]), rem. cj; try (lens; fail).
      * solve_app.
      * rewrite HP. rewrite <- !app_assoc. apply Permutation_app_head. apply Permutation_app_head. simpl.
        change (b :: dropped ++ y :: rem) with ((b :: dropped) ++ y :: rem). rewrite <- Permutation_middle. simpl. auto.
      * apply Forall_app. split; auto. constructor; auto. apply left_solid.
      * intros Ht. eexists. simpl. now rewrite app_nil_r.
      * intros Ho. specialize (HG Ho). apply sorted_app in HG as (G1 & _ & _). pose proof G1 as G1'. apply sorted_app in G1' as (_ & _ & G2).
        apply sorted_app. cj; auto using sorted_one. intros u v Hu [<-|[]]. apply in_app_or in Hu as [Hu|[<-|[]]]; auto.
        apply (le_trans lt (HORD Ho)) with a; auto. apply G2; simpl; auto.
    + destruct (Nat.ltb_spec num 8) as [Hn8'|Hn8'].
      * reshape ((pre ++ map Val (good' ++ [b]) ++ gap) ++ Val y :: map Val rem ++ post). apply wp_bind, mv_at. { lens. }
        apply wp_ret. unfold drop_inv, drop_measure. cbn [snd length]. split; [|lia].
        exists (good' ++ [b]), (gap ++ [left y]), rem. cj; try (lens; fail).
        -- solve_app.
        -- rewrite HP. apply Permutation_app_head. simpl. now rewrite <- Permutation_middle.
        -- apply Forall_app. split; auto. constructor; auto. apply left_solid.
        -- intros Ht. destruct (HT Ht) as (g & ->). exists g. cbn [firstn rev]. unfold left. rewrite Ht. solve_app.
        -- auto.
      * apply wp_bind. replace num with 8 in * by lia. clear Hn8 Hn8'.
        assert (exists d1 d2, dropped = d1 ++ d2 /\ length d1 = 8) as (d1 & d2 & -> & HL1).
        { exists (firstn 8 dropped), (skipn 8 dropped). split; [now rewrite firstn_skipn|]. rewrite firstn_length. lia. }
        assert (exists g1 g2, gap = g1 ++ g2 /\ length g2 = 8 /\ (triv = true -> g2 = map Val (rev d1))) as (g1 & g2 & -> & HL2 & HT2).
        { rewrite app_length in HLg. destruct (Bool.bool_dec triv true) as [Et|Et].
          - destruct (HT Et) as (g & ->). rewrite firstn_app, HL1, Nat.sub_diag in *. rewrite <- HL1, firstn_all in *. simpl. rewrite app_nil_r in *.
            exists g, (map Val (rev d1)). cj; auto. lens.
          - exists (firstn (length gap - 8) gap), (skipn (length gap - 8) gap). cj; [now rewrite firstn_skipn|rewrite skipn_length; lia|congruence]. }
        rewrite !app_length in *. apply Forall_app in HS as [HS1 HS2].
        rewrite <- HL1. reshape ((pre ++ map Val (good' ++ [b]) ++ g1) ++ g2 ++ map Val (y :: rem) ++ post).
        apply undo_wp; auto; [lia|lens|]. cbv beta iota zeta.
        reshape ((pre ++ map Val good') ++ Val b :: g1 ++ map Val (rev d1) ++ map Val (y :: rem) ++ post).
        apply wp_bind, mv_at. { lens. }
        apply wp_ret. unfold drop_inv, drop_measure. cbn [snd length].
        split; [|split].
        -- exists good', (left b :: g1), (rev d1 ++ y :: rem). cj; try (lens; fail).
           ++ solve_app.
           ++ rewrite HP. rewrite <- !app_assoc. apply Permutation_app_head. simpl. apply perm_skip.
              rewrite (Permutation_app_comm d1 (d2 ++ y :: rem)), <- app_assoc. apply Permutation_app_head.
              rewrite Permutation_app_comm. apply Permutation_app_tail. apply Permutation_rev.
           ++ constructor; auto. apply left_solid.
           ++ intros Ht. eexists. simpl. now rewrite app_nil_r.
           ++ intros Ho. specialize (HG Ho). apply sorted_app in HG. tauto.
        -- replace (length xs - (length (d1 ++ d2) - length d1)) with (S (length xs - (S (length d2) - 0))) by (rewrite app_length; lia). lens.
        -- lens.
  - apply wp_bind. apply wp_mono with (Q := fun _ m => exists gap', length gap' = length gap /\ solid gap' /\
      m = pre ++ map Val (good ++ [y]) ++ gap' ++ map Val rem ++ post).
    { destruct gap as [|g gap].
      - cbn [length] in Hr. assert (read = write) as -> by lia. destruct triv eqn:Et.
        + reshape ((pre ++ map Val good) ++ Val y :: map Val rem ++ post).
          apply wp_bind, wp_get_at. { lens. } apply wp_put_at; [lens|discriminate|]. exists []. cj; auto. solve_app.
        + rewrite Nat.eqb_refl. cbn [negb]. apply wp_ret. exists []. cj; auto. solve_app.
      - apply Forall_cons_iff in HS as [Hg HS']. cbn [length] in *. destruct triv eqn:Et.
        + reshape ((pre ++ map Val good ++ g :: gap) ++ Val y :: map Val rem ++ post).
          apply wp_bind, wp_get_at. { lens. }
          reshape ((pre ++ map Val good) ++ g :: gap ++ Val y :: map Val rem ++ post).
          apply wp_put_at; [lens|auto|]. exists (gap ++ [Val y]). cj; [lens| |solve_app].
          apply Forall_app. split; auto. constructor; auto. discriminate.
        + destruct (Nat.eqb_spec read write); [lia|]. cbn [negb].
          reshape ((pre ++ map Val good) ++ g :: gap ++ Val y :: map Val rem ++ post).
          apply wp_move_to_left; [lens|lens|auto|]. exists (gap ++ [Moved]). cj; [lens| |solve_app].
          apply Forall_app. split; auto. constructor; auto. discriminate. }
    intros u m (gap' & HL' & HS' & ->). apply wp_ret. unfold drop_inv, drop_measure. cbn [snd length].
    split; [|split; [|lia]].
    + exists (good ++ [y]), gap', rem. cj; auto; try (lens; fail).
      * rewrite HP. rewrite <- app_assoc. apply Permutation_app_head. simpl. symmetry. apply Permutation_middle.
      * intros Ht. eexists. simpl. now rewrite app_nil_r.
      * intros Ho. apply sorted_app. cj; auto using sorted_one. intros u0 v Hu [<-|[]].
        destruct Hc as [->|(g & b & -> & Hyb)]; [destruct Hu|]. specialize (HG Ho). apply sorted_app in HG as (_ & _ & HG).
        apply in_app_or in Hu as [Hu|[<-|[]]]; auto. apply (le_trans lt (HORD Ho)) with b; auto. apply HG; simpl; auto.
    + apply Nat.add_le_lt_mono; [|lia]. apply Nat.mul_le_mono_r. lia.
Qed.

Lemma drop_loop_wp : forall (Q : list A * nat * nat * nat -> mem A -> Prop), xs <> [] ->
  (forall good gap dropped num, solid gap -> length gap = length dropped -> Permutation xs (good ++ dropped) -> (ord -> sorted lt good) ->
     Q (dropped, num, length pre + length good, end_) (pre ++ map Val good ++ gap ++ post)) ->
  wp (drop_loop comp proj triv begin end_) Q (pre ++ map Val xs ++ post).
Proof.
  intros Q Hxs HQ. unfold drop_loop. replace (end_ - begin) with (length xs) by lia.
  apply wp_loop' with (I := fun s m => drop_inv s m /\ snd s < end_) (mu := drop_measure).
  - split. 2:{ simpl. destruct xs; [congruence|simpl; lia]. }
    exists [], [], xs. cj; simpl; auto; try lia; intros.
    + exists []. auto.
    + apply sorted_nil.
  - unfold drop_measure. simpl length. nia.
  - intros s m [HI Hlt]. apply wp_bind. eapply wp_mono; [apply drop_step_wp; auto|].
    intros s' m' (HI' & HM & Hle). apply wp_ret. destruct (Nat.eqb_spec (snd s') end_) as [E|E].
    + destruct s' as [[[dropped num] write] read]. cbn [snd] in E. destruct HI' as (good & gap & rem & -> & Hw & Hr & HLg & Hn & Hn8 & HP & HS & HT & HG).
      assert (length xs = length good + length dropped + length rem) as HLx. { apply Permutation_length in HP. rewrite !app_length in HP. lia. }
      destruct rem; [|simpl in HLx; lia]. simpl. rewrite app_nil_r in HP. subst write. rewrite E. apply HQ; auto.
    + cj; auto. lia.
Qed.
End Drop.

(** Merging the dropped elements. *)
Lemma merge_back_shift_wp : forall pre d good gap out post (Q : nat * nat -> mem A -> Prop), solid gap -> gap <> [] ->
  (forall g1 g2 gap', good = g1 ++ g2 -> length gap' = length gap -> solid gap' -> (forall y, In y g2 -> lt d y = true) ->
     (forall g y, g1 = g ++ [y] -> lt d y = false) ->
     Q (length pre + length g1 + length gap, length pre + length g1) (pre ++ map Val g1 ++ gap' ++ map Val (g2 ++ out) ++ post)) ->
  wp (merge_back_shift comp proj triv (length pre) d (length pre + length good + length gap) (length pre + length good)) Q
    (pre ++ map Val good ++ gap ++ map Val out ++ post).
Proof.
  intros pre d good gap out post Q HS Hne HQ. unfold merge_back_shift.
  apply wp_loop' with (I := fun '(back, write) m => exists g1 g2 gap', m = pre ++ map Val g1 ++ gap' ++ map Val (g2 ++ out) ++ post /\
    good = g1 ++ g2 /\ length gap' = length gap /\ solid gap' /\ (forall y, In y g2 -> lt d y = true) /\
    write = length pre + length g1 /\ back = write + length gap) (mu := fun '(back, write) => write).
  - exists good, [], gap. cj; auto. now rewrite app_nil_r.
  - lia.
  - intros [back write] m (g1 & g2 & gap' & -> & E & HL & HS' & HD & -> & ->).
    destruct (Nat.eqb_spec (length pre) (length pre + length g1)) as [E1|E1].
    + destruct g1; [|simpl in E1; lia]. apply wp_ret. apply HQ; auto. intros g y Hg. destruct g; discriminate.
    + destruct g1 as [|y g1] using rev_ind; [simpl in E1; lia|]. clear IHg1. rewrite app_length. cbn [length].
      reshape ((pre ++ map Val g1) ++ Val y :: gap' ++ map Val (g2 ++ out) ++ post). apply wp_bind, wp_get_at. { lens. }
      fold (by_proj comp proj d y). change (comp (proj d) (proj y)) with (lt d y). destruct (lt d y) eqn:Edy.
      * apply wp_bind, mv_at. { lens. }
        destruct gap' as [|c gap'] using rev_ind. { simpl in HL. destruct gap; [congruence|discriminate]. } clear IHgap'.
        apply Forall_app in HS' as [HS1 HS2]. inversion HS2 as [|? ? Hc _]; subst.
        reshape ((pre ++ map Val g1 ++ left y :: gap') ++ c :: map Val (g2 ++ out) ++ post).
        apply wp_bind. apply wp_put_at; [rewrite app_length in HL; lens|auto|]. apply wp_ret. split; [|lia].
        exists g1, (y :: g2), (left y :: gap'). cj; try lia.
        -- solve_app.
        -- now rewrite <- app_assoc.
        -- rewrite app_length in HL. simpl in *. lia.
        -- constructor; auto. apply left_solid.
        -- intros z [<-|Hz]; auto.
      * reshape (pre ++ map Val (g1 ++ [y]) ++ gap' ++ map Val (g2 ++ out) ++ post).
        apply wp_ret. replace (length pre + (length g1 + 1)) with (length pre + length (g1 ++ [y])) by (rewrite app_length; simpl; lia).
        apply HQ; auto. intros g z Hg. apply app_inj_tail in Hg as [_ ->]. auto.
Qed.

Lemma merge_back_wp : forall dr pre good gap out post (Q : unit -> mem A -> Prop), solid gap -> length gap = length dr ->
  (forall ys, Permutation (good ++ dr ++ out) ys -> (ord -> sorted lt (good ++ out) -> sorted lt (rev dr ++ out) -> sorted lt ys) ->
     Q tt (pre ++ map Val ys ++ post)) ->
  wp (merge_back comp proj triv (length pre) dr (length pre + length good + length gap) (length pre + length good)) Q
    (pre ++ map Val good ++ gap ++ map Val out ++ post).
Proof.
  induction dr as [|d dr IH]; intros pre good gap out post Q HS HL HQ.
  - destruct gap; [|discriminate]. reshape (pre ++ map Val (good ++ out) ++ post). apply wp_ret. apply HQ; auto.
  - cbn [merge_back]. apply wp_bind. apply merge_back_shift_wp; auto. { destruct gap; discriminate. }
    intros g1 g2 gap' -> HL' HS' HD Hlast. cbv beta iota zeta.
    rewrite HL in HL'. cbn [length] in HL'. destruct (snoc_inv _ gap' _ HL') as (gp & c & -> & HLp).
    apply Forall_app in HS' as [HS1 HS2]. inversion HS2 as [|? ? Hc _]; subst.
    reshape ((pre ++ map Val g1 ++ gp) ++ c :: map Val (g2 ++ out) ++ post).
    apply wp_bind. apply wp_put_at; [lens|auto|].
    reshape (pre ++ map Val g1 ++ gp ++ map Val (d :: g2 ++ out) ++ post).
    replace (length pre + length g1 + length gap - 1) with (length pre + length g1 + length gp) by (rewrite HL; simpl; lia).
    apply IH; auto. intros ys HP HO. apply HQ.
    + rewrite <- HP. rewrite <- !app_assoc. apply Permutation_app_head. simpl.
      rewrite (Permutation_app_comm g2). simpl. rewrite <- Permutation_middle. apply perm_skip. rewrite <- app_assoc. apply Permutation_app_head. apply Permutation_app_comm.
    + intros Ho H1 H2. pose proof (HORD Ho) as HW. apply HO; auto.
      * cbn [rev] in H2. rewrite <- app_assoc in H1, H2. cbn [app] in H2. apply sorted_app in H1 as (K1 & K2 & K3). apply sorted_app in H2 as (M1 & M2 & M3).
        apply sorted_cons in M2 as [M2 M4]. apply sorted_app. cj; auto.
        -- apply sorted_cons. split; auto. intros z Hz. apply in_app_or in Hz as [Hz|Hz]; auto. now apply (lt_asym lt HW), HD.
        -- intros u v Hu Hv. destruct Hv as [<-|Hv].
           ++ destruct g1 as [|y g1] using rev_ind; [destruct Hu|]. clear IHg1. specialize (Hlast _ _ eq_refl).
              apply in_app_or in Hu as [Hu|[<-|[]]]; auto. apply (le_trans lt HW) with y; auto. apply sorted_app in K1 as (_ & _ & K1). apply K1; simpl; auto.
           ++ apply K3; auto.
      * cbn [rev] in H2. rewrite <- app_assoc in H1, H2. cbn [app] in H2. apply sorted_app in H1 as (K1 & K2 & K3). apply sorted_app in H2 as (M1 & M2 & M3).
        apply sorted_cons in M2 as [M2 M4]. apply sorted_app. cj; auto.
        -- apply sorted_cons. split; auto. intros z Hz. apply in_app_or in Hz as [Hz|Hz]; auto. now apply (lt_asym lt HW), HD.
        -- intros u v Hu Hv. destruct Hv as [<-|Hv]. { apply M3; simpl; auto. }
           apply in_app_or in Hv as [Hv|Hv]; [|apply M3; simpl; auto].
           apply (le_trans lt HW) with d. { apply M3; simpl; auto. } now apply (lt_asym lt HW), HD.
Qed.

Lemma drop_merge_runs : forall inner, runs sorting_rel inner -> runs sorting_rel (drop_merge_adapter comp proj triv inner).
Proof.
  intros inner HI pre xs post. unfold drop_merge_adapter.
  assert (length xs < 2 -> exists ys, ret tt (pre ++ map Val xs ++ post) = Ok tt (pre ++ map Val ys ++ post) /\ sorting_rel xs ys) as Hsmall.
  { intros H. exists xs. split; [reflexivity|]. split; auto. intros _. destruct xs as [|x [|y xs]]; [apply sorted_nil|apply sorted_one|simpl in H; lia]. }
  destruct (Nat.eqb_spec (length pre) (length pre + length xs)); [apply Hsmall; lia|].
  destruct (Nat.eqb_spec (S (length pre)) (length pre + length xs)); [apply Hsmall; lia|]. cbn [orb]. clear Hsmall.
  match goal with |- exists ys, ?c ?m = _ /\ _ => assert (wp c (fun _ m' => exists ys, m' = pre ++ map Val ys ++ post /\ sorting_rel xs ys) m) as H end.
  2:{ apply wp_ok in H as ([] & m' & E & ys & -> & HR). eauto. }
  apply wp_bind. apply drop_loop_wp. { destruct xs; [simpl in *; lia|discriminate]. }
  intros good gap dropped num HS HL HP HG. destruct dropped as [|d0 dropped].
  - destruct gap; [|discriminate]. apply wp_ret. exists good. rewrite app_nil_r in HP. split; auto. split; auto.
  - apply wp_bind. eapply wp_sort_vector; [exact HI|]. intros v' [HP' HS'].
    replace (length pre + length xs) with (length pre + length good + length gap).
    2:{ apply Permutation_length in HP. rewrite app_length in HP. lia. }
    reshape (pre ++ map Val good ++ gap ++ map Val [] ++ post).
    assert (Permutation (d0 :: dropped) v') as HP2 by (rewrite <- HP'; apply Permutation_rev).
    apply merge_back_wp; auto. { rewrite rev_length. apply Permutation_length in HP2. lia. }
    intros ys HPy HSy. exists ys. split; auto. split.
    + rewrite HP, <- HPy, app_nil_r. apply Permutation_app_head. rewrite HP2. apply Permutation_rev.
    + intros Ho. apply HSy; auto; rewrite app_nil_r; auto. rewrite rev_involutive. auto.
Qed.
End DropMerge.

From Verif Require Import Model.Rotate Model.Buffer Model.Merge Proofs.MergeLib Proofs.MergeSort.

Section Split.
Context {A T : Type} (comp : T -> T -> bool) (proj : A -> T).
Notation lt := (by_proj comp proj).
Variable ord : Prop.
Hypothesis HORD : ord -> strict_weak_order lt.
Notation sorting_rel := (sorting_rel comp proj ord).

Lemma split_loop_wp : forall f l m, full f l m -> f < l ->
  wp (split_loop comp proj f l) (fun mid m' => f <= mid < l /\ pm f l m m' /\ (ord -> sorted_range lt f mid m')) m.
Proof.
  intros f l m Hf Hfl. unfold split_loop.
  apply wp_loop' with (I := fun '(mid, rd) m' => f <= mid /\ mid < rd /\ rd <= l /\ pm f l m m' /\ (ord -> sorted_range lt f (S mid) m'))
    (mu := fun '(mid, rd) => l - rd).
  - cj; try lia. { apply pm_refl. } intros _ i j x y Hi Hij Hj. lia.
  - lia.
  - intros [mid rd] m' (H1 & H2 & H3 & HP & HS). destruct (Nat.eqb_spec rd l) as [E|E].
    { apply wp_ret. cj; auto; try lia. intros Ho i j x y ? ? ?. apply (HS Ho i j); lia. }
    assert (Hf' : full f l m') by (eapply pm_full; eauto).
    rdv Hf' rd x Hx. rdv Hf' mid y Hy. apply wp_bind. apply wp_less_at with (x := x) (y := y); auto.
    destruct (lt x y) eqn:Exy.
    + apply wp_ret. split; [|lia]. destruct (Nat.eqb_spec mid f); cbn [negb]; cj; auto; try lia. intros Ho i j a b ? ? ?. apply (HS Ho i j); lia.
    + apply wp_bind. apply wp_swap_pm with (f := f) (l := l); try lia; auto.
      intros m2 HP2 HSW. apply wp_ret. split; [|lia]. cj; try lia. { eapply pm_trans; eauto. }
      intros Ho i j a b Hi Hij Hj Ha Hb. rewrite HSW in Ha, Hb. rewrite tr_o in Ha by lia.
      destruct (Nat.eq_dec j (S mid)) as [->|Hj'].
      * rewrite tr_l in Hb. assert (b = x) by congruence. subst b. destruct (Nat.eq_dec i mid) as [->|Hi']; [congruence|].
        apply (le_trans lt (HORD Ho)) with y; auto. apply (HS Ho i mid); auto; lia.
      * rewrite tr_o in Hb by lia. apply (HS Ho i j); auto; lia.
Qed.

Lemma split_runs : forall cat triv o inner, cat <> Forward -> runs sorting_rel inner ->
  runs sorting_rel (split_adapter comp proj cat triv o inner).
Proof.
  intros cat triv o inner HC HI pre xs post. unfold split_adapter.
  assert (length xs < 2 -> exists ys, ret tt (pre ++ map Val xs ++ post) = Ok tt (pre ++ map Val ys ++ post) /\ sorting_rel xs ys) as Hsmall.
  { intros H. exists xs. split; [reflexivity|]. split; auto. intros _. destruct xs as [|x [|y xs]]; [apply sorted_nil|apply sorted_one|simpl in H; lia]. }
  destruct (Nat.eqb_spec (length pre) (length pre + length xs)); [apply Hsmall; lia|].
  destruct (Nat.eqb_spec (S (length pre)) (length pre + length xs)); [apply Hsmall; lia|]. cbn [orb]. clear Hsmall.
  match goal with |- exists ys, ?c ?m = _ /\ _ => assert (wp c (fun _ m' => exists ys, m' = pre ++ map Val ys ++ post /\ sorting_rel xs ys) m) as H end.
  2:{ apply wp_ok in H as ([] & m' & E & ys & -> & HR). eauto. }
  apply wp_bind. eapply wp_mono; [apply split_loop_wp; [apply full_init|lia]|].
  intros mid m' (Hmid & HP & HS). apply pm_decomp in HP as (ys & -> & HPy). pose proof (Permutation_length HPy) as HL.
  assert (exists y1 y2, ys = y1 ++ y2 /\ mid = length pre + length y1) as (y1 & y2 & -> & ->).
  { exists (firstn (mid - length pre) ys), (skipn (mid - length pre) ys). split; [now rewrite firstn_skipn|]. rewrite firstn_length. lia. }
  rewrite app_length in HL.
  assert (ord -> sorted lt y1) as HS1.
  { intros Ho. apply sorted_range_list with (pre := pre) (post := map Val y2 ++ post). rewrite map_app, <- app_assoc in HS. auto. }
  reshape ((pre ++ map Val y1) ++ map Val y2 ++ post).
  destruct (HI (pre ++ map Val y1) y2 post) as (w & E & HPw & HSw).
  replace (length pre + length y1) with (length (pre ++ map Val y1)) at 1 by lens.
  replace (length pre + length xs) with (length (pre ++ map Val y1) + length y2) at 1 by lens.
  apply wp_bind. apply wp_run with (1 := E). pose proof (Permutation_length HPw) as HLw.
  reshape (pre ++ map Val (y1 ++ w) ++ post).
  apply inplace_merge_wp with (pre := pre) (post := post) (l1 := y1) (l2 := w); auto; try lia. { destruct w; [simpl in *; lia|discriminate]. }
  intros zs [HPz HSz]. exists zs. split; auto. split.
  - rewrite HPy, <- HPz. now apply Permutation_app_head.
  - intros Ho. rewrite HSz; auto. apply ssort_sorted; auto.
Qed.
End Split.

From Verif Require Import Model.Pdq Proofs.Pdq.
Section Statements.
Context {A T : Type} (comp : T -> T -> bool) (proj : A -> T).
Notation lt := (by_proj comp proj).

Lemma sorts_runs : strict_weak_order comp -> forall prog, runs (sorting_rel comp proj True) prog <-> sorts lt prog.
Proof.
  intros HC prog. split; intros H pre xs post; destruct (H pre xs post) as (ys & E & HR & HS); exists ys; split; auto; split; auto.
Qed.
Lemma permutes_runs : forall prog : range_prog A, runs (sorting_rel comp proj False) prog <-> permutes prog.
Proof.
  intros prog. split; intros H pre xs post.
  - destruct (H pre xs post) as (ys & E & HR & HS); exists ys; auto.
  - destruct (H pre xs post) as (ys & E & HR); exists ys; split; auto; split; auto; tauto.
Qed.

Lemma drop_merge_sorts : strict_weak_order comp -> forall triv inner, sorts lt inner -> sorts lt (drop_merge_adapter comp proj triv inner).
Proof. intros HC triv inner HI. apply sorts_runs; auto. apply drop_merge_runs. { intros _. now apply swo_by_proj. } now apply sorts_runs. Qed.
Lemma drop_merge_permutes : forall triv inner, permutes inner -> permutes (drop_merge_adapter comp proj triv inner).
Proof. intros triv inner HI. apply permutes_runs. apply drop_merge_runs; [tauto|]. now apply permutes_runs. Qed.
Lemma split_sorts : strict_weak_order comp -> forall cat triv o inner, cat <> Forward -> sorts lt inner -> sorts lt (split_adapter comp proj cat triv o inner).
Proof. intros HC cat triv o inner Hc HI. apply sorts_runs; auto. apply split_runs; auto. { intros _. now apply swo_by_proj. } now apply sorts_runs. Qed.
Lemma split_permutes : forall cat triv o inner, cat <> Forward -> permutes inner -> permutes (split_adapter comp proj cat triv o inner).
Proof. intros cat triv o inner Hc HI. apply permutes_runs. apply split_runs; auto; [tauto|]. now apply permutes_runs. Qed.
End Statements.
