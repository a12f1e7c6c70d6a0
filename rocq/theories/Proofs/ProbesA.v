(** Proofs about the probes: runs, mono, rem, sus. *)
From Coq Require Import List Arith Lia Permutation Bool.
From Verif Require Import Spec.Order Spec.Probes Lang.Mem Spec.Sorts Proofs.Wp Proofs.OrderLib Proofs.Search Model.Search
  Model.Indirect Proofs.Indirect Model.Probes.
Import ListNotations.

Lemma wp_on_vector : forall A E X (v : list E) (c : M E X) (Q : X -> mem A -> Prop) m,
  wp c (fun x _ => Q x m) (map Val v) -> wp (on_vector v c) Q m.
Proof. intros A E X v c Q m H. unfold wp, on_vector in *. destruct (c (map Val v)); auto. Qed.

Lemma flip_swo : forall A (lt : A -> A -> bool), strict_weak_order lt -> strict_weak_order (fun x y => lt y x).
Proof.
  intros A lt HW. constructor.
  - intros x. apply (lt_irrefl lt HW).
  - intros x y z H1 H2. eapply (lt_trans lt HW); eauto.
  - intros x y z H1 H2 H3 H4. split; [eapply (le_trans lt HW) with (y := y)|eapply (le_trans lt HW) with (y := y)]; auto.
Qed.

Lemma length_filter_seq_S : forall f c, length (filter f (seq 0 (S c))) =
  length (filter f (seq 0 c)) + (if f c then 1 else 0).
Proof.
  intros f c. rewrite seq_S, filter_app, app_length. simpl. destruct (f c); auto.
Qed.

Section LessPos.
Context {A : Type} (lt : A -> A -> bool).
Lemma less_pos_some : forall xs i j x y, nth_error xs i = Some x -> nth_error xs j = Some y ->
  less_pos lt xs j i = lt y x.
Proof. intros xs i j x y Hi Hj. unfold less_pos. now rewrite Hi, Hj. Qed.
Lemma sorted_less_pos : forall xs, sorted lt xs <-> forall i j, i < j -> less_pos lt xs j i = false.
Proof.
  intros xs. split.
  - intros H i j Hij. unfold less_pos. destruct (nth_error xs j) eqn:Ej; auto. destruct (nth_error xs i) eqn:Ei; auto.
    eapply H; eauto.
  - intros H i j x y Hij Hi Hj. rewrite <- (less_pos_some xs i j x y Hi Hj). auto.
Qed.
End LessPos.

(** * runs *)
Section Runs.
Context {A T : Type} (comp : T -> T -> bool) (proj : A -> T).
Notation lt := (by_proj comp proj).

Lemma probe_runs_wp : forall pre xs post (Q : nat -> mem A -> Prop),
  Q (length (step_downs lt xs)) (pre ++ map Val xs ++ post) ->
  wp (probe_runs comp proj (length pre) (length pre + length xs)) Q (pre ++ map Val xs ++ post).
Proof.
  intros pre xs post Q HQ. unfold probe_runs.
  destruct (Nat.eqb_spec (length pre) (length pre + length xs)) as [E|E].
  { simpl. apply wp_ret. unfold step_downs in HQ. replace (length xs - 1) with 0 in HQ by lia. exact HQ. }
  destruct (Nat.eqb_spec (S (length pre)) (length pre + length xs)) as [E1|E1].
  { simpl. apply wp_ret. unfold step_downs in HQ. replace (length xs - 1) with 0 in HQ by lia. exact HQ. }
  simpl orb. cbv iota.
  set (down := fun i => less_pos lt xs (S i) i).
  eapply wp_loop' with (mu := fun '(current, next, count) => length pre + length xs - next)
    (I := fun '(current, next, count) m => exists c, current = length pre + c /\ next = S current /\ c < length xs /\
       count = length (filter down (seq 0 c)) /\ m = pre ++ map Val xs ++ post).
  - exists 0. cj; auto; lia.
  - lia.
  - intros [[current next] count] m (c & -> & -> & Hc & -> & ->).
    apply wp_bind.
    eapply wp_loop' with (mu := fun '(current, next) => length pre + length xs - next)
      (I := fun '(current, next) m => exists c', c <= c' /\ current = length pre + c' /\ next = S current /\ c' < length xs /\
         length (filter down (seq 0 c)) = length (filter down (seq 0 c')) /\ m = pre ++ map Val xs ++ post).
    + exists c. cj; auto.
    + lia.
    + intros [current next] m (c' & Hcc & -> & -> & Hc' & Ec & ->).
      destruct (Nat.eqb_spec (S (length pre + c')) (length pre + length xs)) as [El|El].
      * apply wp_ret. destruct (Nat.eqb_spec (S (length pre + c')) (length pre + length xs)); [|lia].
        apply wp_ret. rewrite Ec. replace c' with (length xs - 1) by lia. exact HQ.
      * destruct (nth_some _ xs c' Hc') as (x & Hx). destruct (nth_some _ xs (S c')) as (y & Hy); [lia|].
        apply wp_bind. replace (S (length pre + c')) with (length pre + S c') by lia.
        eapply wp_get_list; eauto. apply wp_bind. eapply wp_get_list; eauto.
        change (comp (proj y) (proj x)) with (lt y x).
        assert (down c' = lt y x) as Ed by (apply less_pos_some; auto).
        destruct (lt y x) eqn:El'; simpl negb; cbv iota.
        -- apply wp_ret. destruct (Nat.eqb_spec (length pre + S c') (length pre + length xs)); [lia|].
           apply wp_ret. split; [|lia]. exists (S c'). cj; auto; try lia.
           rewrite length_filter_seq_S, Ed. lia.
        -- apply wp_ret. split; [|lia]. exists (S c'). cj; auto; try lia.
           rewrite length_filter_seq_S, Ed. lia.
Qed.
End Runs.

(** * mono *)
Section Mono.
Context {A : Type} (lt : A -> A -> bool).
Hypothesis HW : strict_weak_order lt.

Lemma sorted_prefix : forall (l : A -> A -> bool) a b, sorted l (a ++ b) -> sorted l a.
Proof. intros l a b H. now apply sorted_app in H. Qed.
Lemma monotone_prefix : forall a b, monotone lt (a ++ b) -> monotone lt a.
Proof. intros a b [H|H]; [left|right]; eapply sorted_prefix; eauto. Qed.

Lemma greedy_inv : forall xs k, greedy_runs lt xs k -> (xs = [] /\ k = 0) \/
  exists run rest k', xs = run ++ rest /\ k = S k' /\ run <> [] /\ monotone lt run /\
    (match rest with [] => True | x :: _ => ~ monotone lt (run ++ [x]) end) /\ greedy_runs lt rest k'.
Proof. intros xs k H. destruct H as [|run rest k H1 H2 H3 H4]; [left; auto|right; exists run, rest, k; cj; auto]. Qed.
Lemma greedy_nil_inv : forall k, greedy_runs lt [] k -> k = 0.
Proof.
  intros k H. apply greedy_inv in H as [[_ H]|(run & rest & k' & E & _ & Hne & _)]; auto.
  symmetry in E. apply app_eq_nil in E as [-> _]. congruence.
Qed.

Lemma greedy_fun : forall xs k, greedy_runs lt xs k -> forall k', greedy_runs lt xs k' -> k = k'.
Proof.
  induction 1 as [|run rest k Hne Hm Hmax Hg IH]; intros k' H'.
  - symmetry. now apply greedy_nil_inv.
  - apply greedy_inv in H' as [[E ->]|(run' & rest' & k'' & E & -> & Hne' & Hm' & Hmax' & Hg')].
    { apply app_eq_nil in E as [-> _]. congruence. }
    f_equal. apply IH.
    assert (forall (a b c d : list A), a ++ b = c ++ d -> monotone lt c ->
      (match b with [] => True | x :: _ => ~ monotone lt (a ++ [x]) end) -> length a < length c -> False) as K.
    { intros a b c d Eab Hc Hb Hl.
      assert (exists e, c = a ++ e) as (e & ->).
      { exists (firstn (length c - length a) b). apply (f_equal (firstn (length c))) in Eab.
        rewrite firstn_app in Eab. rewrite (firstn_all2 a) in Eab by lia.
        rewrite firstn_app, firstn_all, Nat.sub_diag, app_nil_r in Eab. now rewrite Eab. }
      rewrite <- app_assoc in Eab. apply app_inv_head in Eab.
      destruct e as [|x e]; [rewrite app_length in Hl; simpl in Hl; lia|].
      subst b. simpl in Hb. apply Hb. apply (monotone_prefix (a ++ [x]) e). now rewrite <- app_assoc. }
    destruct (Nat.lt_trichotomy (length run) (length run')) as [L|[L|L]].
    + exfalso. eapply (K run rest run' rest'); eauto.
    + assert (run' = run /\ rest' = rest) as [-> ->]; [|exact Hg'].
      { symmetry in L. clear - E L. revert run' L E. induction run as [|a run IHr]; intros [|b run'] L E; simpl in *; try lia; auto.
        inversion E; subst. destruct (IHr run') as [-> ->]; auto. }
    + exfalso. eapply (K run' rest' run rest); eauto.
Qed.

Lemma greedy_bound : forall xs k, greedy_runs lt xs k -> 2 * k <= length xs + 1.
Proof.
  induction 1 as [|run rest k Hne Hm Hmax Hg IH]; simpl; [lia|]. rewrite app_length.
  destruct run as [|a run]; [congruence|]. destruct rest as [|b rest].
  { apply greedy_nil_inv in Hg. subst k. simpl. lia. }
  destruct run as [|c run]; [|simpl length in *; lia].
  exfalso. apply Hmax. simpl.
  destruct (lt b a) eqn:E; [right|left]; apply sorted_cons; split; try apply sorted_one; intros z [<-|[]]; auto.
  red. now apply (lt_asym lt HW).
Qed.
Lemma greedy_sorted : forall xs k, monotone lt xs -> greedy_runs lt xs k -> k <= 1.
Proof.
  intros xs k Hm Hg. destruct xs as [|a xs].
  - apply greedy_nil_inv in Hg. lia.
  - assert (greedy_runs lt (a :: xs) 1) as H.
    { rewrite <- (app_nil_r (a :: xs)). constructor; auto; [discriminate|constructor]. }
    rewrite (greedy_fun _ _ Hg _ H). auto.
Qed.
End Mono.

Section MonoProbe.
Context {A T : Type} (comp : T -> T -> bool) (proj : A -> T).
Hypothesis HC : strict_weak_order comp.
Notation lt := (by_proj comp proj).
Let HW : strict_weak_order lt := swo_by_proj _ _ comp proj HC.

Lemma monotone_flip : forall xs : list A, monotone (fun x y => lt y x) xs <-> monotone lt xs.
Proof. intros xs. unfold monotone. tauto. Qed.

(** Following a run, in either direction. *)
Lemma mono_run_wp : forall (lt' : A -> A -> bool) pre xs post done run c x rest (Q : option (nat * nat) -> mem A -> Prop),
  strict_weak_order lt' -> xs = done ++ (run ++ [c; x]) ++ rest ->
  sorted lt' (run ++ [c; x]) -> lt' c x = true ->
  (sorted lt' (run ++ [c; x] ++ rest) -> Q None (pre ++ map Val xs ++ post)) ->
  (forall run' y rest', run ++ [c; x] ++ rest = run' ++ y :: rest' -> run' <> [] -> sorted lt' run' ->
     ~ sorted lt' (run' ++ [y]) -> ~ sorted (fun x y => lt' y x) (run' ++ [y]) ->
     Q (Some (length pre + length done + length run' - 1, length pre + length done + length run'))
       (pre ++ map Val xs ++ post)) ->
  wp (mono_run (fun x y => lt' y x) (length pre + length xs)
       (length pre + length done + length run) (length pre + length done + length run + 1)) Q (pre ++ map Val xs ++ post).
Proof.
  intros lt' pre xs post done run c x rest Q HW' Ex HS Hcx HN HY. unfold mono_run.
  eapply wp_loop' with (mu := fun '(current, next) => length pre + length xs - next)
    (I := fun '(current, next) m => exists mid rest', rest = mid ++ rest' /\ sorted lt' (run ++ [c; x] ++ mid) /\
       next = length pre + length done + length run + 1 + length mid /\ m = pre ++ map Val xs ++ post).
  - exists [], rest. cj; simpl; auto; lia.
  - lia.
  - intros [current next] m (mid & rest' & -> & HSm & -> & ->).
    destruct (Nat.eqb_spec (S (length pre + length done + length run + 1 + length mid)) (length pre + length xs)) as [E|E].
    + apply wp_ret. assert (rest' = []) as -> by (subst xs; destruct rest'; [auto|lens]).
      rewrite app_nil_r in HN. auto.
    + destruct rest' as [|y rest']. { subst xs. lens. }
      assert (nth_error xs (length done + length run + 2 + length mid) = Some y) as Hy.
      { subst xs. replace (done ++ (run ++ [c; x]) ++ mid ++ y :: rest') with ((done ++ run ++ [c; x] ++ mid) ++ y :: rest')
          by (rewrite <- !app_assoc; reflexivity).
        rewrite nth_error_app2 by lens. replace (_ - _) with 0 by lens. reflexivity. }
      destruct (@exists_last _ (run ++ [c; x] ++ mid)) as (l & z & Elz). { destruct run; discriminate. }
      assert (length l = length run + 1 + length mid) as HLl.
      { apply (f_equal (@length A)) in Elz. rewrite !app_length in Elz. simpl in Elz. lia. }
      assert (nth_error xs (length done + length run + 1 + length mid) = Some z) as Hz.
      { subst xs. replace (done ++ (run ++ [c; x]) ++ mid ++ y :: rest')
          with (done ++ (run ++ [c; x] ++ mid) ++ y :: rest') by (rewrite <- !app_assoc; reflexivity).
        rewrite Elz. rewrite <- app_assoc. rewrite (nth_error_app2 done) by lia. rewrite nth_error_app2 by lia.
        replace (_ - _ - _) with 0 by lia. reflexivity. }
      assert (In z (run ++ [c; x] ++ mid)) as Hin. { rewrite Elz. apply in_or_app. right. left. auto. }
      assert (forall u, In u (run ++ [c; x] ++ mid) -> le lt' u z) as Hmax.
      { intros u Hu. rewrite Elz in Hu, HSm. apply in_app_or in Hu as [Hu|[<-|[]]]; [|apply (le_refl lt' HW')].
        apply sorted_app in HSm as (_ & _ & HSm). apply HSm; auto. left. auto. }
      apply wp_bind. replace (S (length pre + length done + length run + 1 + length mid))
        with (length pre + (length done + length run + 2 + length mid)) by lia.
      eapply wp_get_list; eauto. apply wp_bind.
      replace (length pre + length done + length run + 1 + length mid)
        with (length pre + (length done + length run + 1 + length mid)) by lia.
      eapply wp_get_list; eauto.
      destruct (lt' y z) eqn:El; simpl negb; cbv iota; apply wp_ret.
      * replace (length pre + (length done + length run + 1 + length mid))
          with (length pre + length done + length (run ++ [c; x] ++ mid) - 1) by lens.
        replace (length pre + (length done + length run + 2 + length mid))
          with (length pre + length done + length (run ++ [c; x] ++ mid)) by lens.
        apply HY with (y := y) (rest' := rest').
        -- rewrite <- !app_assoc. reflexivity.
        -- destruct run; discriminate.
        -- auto.
        -- intros HSy. apply sorted_app in HSy as (_ & _ & HSy).
           specialize (HSy z y Hin (or_introl eq_refl)). red in HSy. congruence.
        -- intros HSy. rewrite <- !app_assoc in HSy. apply sorted_app in HSy as (_ & HSy & _).
           simpl in HSy. apply sorted_cons in HSy as (HSy & _). specialize (HSy x (or_introl eq_refl)). red in HSy. congruence.
      * split; [|subst xs; lens]. exists (mid ++ [y]), rest'. cj; auto.
        -- now rewrite <- app_assoc.
        -- replace (run ++ [c; x] ++ mid ++ [y]) with ((run ++ [c; x] ++ mid) ++ [y]) by (rewrite <- !app_assoc; reflexivity).
           apply sorted_app. cj; auto using sorted_one. intros u v Hu [<-|[]].
           eapply (le_trans lt' HW'); [apply Hmax; auto|exact El].
        -- lens.
Qed.

Lemma probe_mono_wp : forall pre xs post (Q : nat -> mem A -> Prop),
  (forall k, greedy_runs lt xs k -> Q (k - 1) (pre ++ map Val xs ++ post)) ->
  wp (probe_mono comp proj (length pre) (length pre + length xs)) Q (pre ++ map Val xs ++ post).
Proof.
  intros pre xs post Q HQ. unfold probe_mono.
  destruct (Nat.eqb_spec (length pre) (length pre + length xs)) as [E|E].
  { simpl. apply wp_ret. apply (HQ 0). destruct xs; [constructor|simpl in E; lia]. }
  destruct (Nat.eqb_spec (S (length pre)) (length pre + length xs)) as [E1|E1].
  { simpl. apply wp_ret. apply (HQ 1). destruct xs as [|a [|b xs]]; simpl in *; try lia.
    apply (greedy_run lt [a] [] 0); [discriminate|left; apply sorted_one|exact I|constructor]. }
  simpl orb. cbv iota.
  eapply wp_loop' with (mu := fun '(current, next, count) => length pre + length xs - next)
    (I := fun '(current, next, count) m => exists done run c rest, xs = done ++ (run ++ [c]) ++ rest /\
       (forall a b, In a (run ++ [c]) -> In b (run ++ [c]) -> equivalent lt a b = true) /\
       current = length pre + length done + length run /\ next = S current /\
       (forall k, greedy_runs lt ((run ++ [c]) ++ rest) k -> greedy_runs lt xs (count + k)) /\
       m = pre ++ map Val xs ++ post).
  - destruct xs as [|a xs]; [simpl in E; lia|]. exists [], [], a, xs. cj; simpl; auto; try lia.
    intros x y [<-|[]] [<-|[]]. apply (eqv_refl lt HW).
  - lia.
  - intros [[current next] count] m (done & run & c & rest & Ex & Heq & -> & -> & Hg & ->).
    assert (sorted lt (run ++ [c])) as HSl.
    { intros i j a b Hij Hi Hj. apply nth_error_In in Hi, Hj. specialize (Heq _ _ Hi Hj).
      apply eqv_spec in Heq as [H _]. exact H. }
    assert (sorted (fun x y => lt y x) (run ++ [c])) as HSr.
    { intros i j a b Hij Hi Hj. apply nth_error_In in Hi, Hj. specialize (Heq _ _ Hi Hj).
      apply eqv_spec in Heq as [_ H]. exact H. }
    destruct (Nat.eqb_spec (S (length pre + length done + length run)) (length pre + length xs)) as [En|En].
    { assert (rest = []) as -> by (subst xs; destruct rest; [auto|lens]).
      apply wp_ret. replace count with (count + 1 - 1) by lia. apply HQ. apply Hg.
      constructor; [destruct run; discriminate|left; auto|exact I|constructor]. }
    destruct rest as [|y rest]. { subst xs. lens. }
    assert (nth_error xs (length done + length run) = Some c) as Hc.
    { subst xs. rewrite <- !app_assoc. rewrite nth_error_app2 by lia. rewrite nth_error_app2 by lia.
      replace (_ - _) with 0 by lia. reflexivity. }
    assert (nth_error xs (length done + length run + 1) = Some y) as Hy.
    { subst xs. rewrite <- !app_assoc. rewrite nth_error_app2 by lia. rewrite nth_error_app2 by lia.
      replace (_ - _) with 1 by lia. reflexivity. }
    apply wp_bind. replace (length pre + length done + length run) with (length pre + (length done + length run)) by lia.
    eapply wp_get_list; eauto. apply wp_bind.
    replace (S (length pre + (length done + length run))) with (length pre + (length done + length run + 1)) by lia.
    eapply wp_get_list; eauto.
    change (comp (proj c) (proj y)) with (lt c y). change (comp (proj y) (proj c)) with (lt y c).
    (* what to do after a run, in either direction *)
    assert (forall lt', (lt' = lt \/ lt' = (fun x y => lt y x)) -> lt' c y = true ->
      wp (let* r := mono_run (fun x y => lt' y x) (length pre + length xs) (length pre + (length done + length run))
                      (length pre + (length done + length run + 1)) in
          match r with
          | None => ret (inr count)
          | Some (current, next) => ret (inl (next, S next, S count))
          end)
        (fun r m' => match r with
          | inl s' => (let '(current, next, count) := s' in exists done run c rest, xs = done ++ (run ++ [c]) ++ rest /\
               (forall a b, In a (run ++ [c]) -> In b (run ++ [c]) -> equivalent lt a b = true) /\
               current = length pre + length done + length run /\ next = S current /\
               (forall k, greedy_runs lt ((run ++ [c]) ++ rest) k -> greedy_runs lt xs (count + k)) /\
               m' = pre ++ map Val xs ++ post) /\
               (let '(current, next, count) := s' in length pre + length xs - next) <
               length pre + length xs - (length pre + (length done + length run + 1))
          | inr x => Q x m' end) (pre ++ map Val xs ++ post)) as K.
    { intros lt' Hlt' Hcy.
      assert (strict_weak_order lt') as HW' by (destruct Hlt' as [-> | ->]; [exact HW|now apply flip_swo]).
      assert (forall l, sorted lt' l -> monotone lt l) as Hmono by (destruct Hlt' as [-> | ->]; intros l H; [left|right]; exact H).
      assert (forall l, ~ sorted lt' l -> ~ sorted (fun x y => lt' y x) l -> ~ monotone lt l) as Hnmono.
      { destruct Hlt' as [-> | ->]; intros l H1 H2 [H|H]; auto. }
      assert (sorted lt' (run ++ [c; y])) as HScy.
      { replace (run ++ [c; y]) with ((run ++ [c]) ++ [y]) by (now rewrite <- app_assoc).
        apply sorted_app. cj; auto using sorted_one; [destruct Hlt' as [-> | ->]; auto|].
        intros a b Ha [<-|[]]. apply (le_trans lt' HW') with (y := c); [|now apply (lt_le lt' HW')].
        assert (equivalent lt a c = true) as Hac by (apply Heq; auto; apply in_or_app; right; left; auto).
        clear Heq; rename Hac into Heq.
        apply eqv_spec in Heq as [H1 H2]. destruct Hlt' as [-> | ->]; [exact H1|exact H2]. }
      apply wp_bind. replace (length pre + (length done + length run)) with (length pre + length done + length run) by lia.
      replace (length pre + (length done + length run + 1)) with (length pre + length done + length run + 1) by lia.
      eapply mono_run_wp with (c := c) (x := y) (rest := rest); auto.
      - subst xs. rewrite <- !app_assoc. reflexivity.
      - intros HSall. apply wp_ret. replace count with (count + 1 - 1) by lia. apply HQ, Hg.
        rewrite <- (app_nil_r ((run ++ [c]) ++ y :: rest)). constructor; auto.
        + destruct run; discriminate.
        + apply Hmono. rewrite <- app_assoc. exact HSall.
        + constructor.
      - intros run' z rest' Er Hne' HS' Hn1 Hn2. apply wp_ret.
        assert (length run' >= 2) as HL2.
        { destruct run' as [|a [|b run']]; [congruence| |simpl; lia]. exfalso.
          simpl app in Hn1, Hn2. destruct (lt' z a) eqn:Eza.
          - apply Hn2. apply sorted_cons. split; [|apply sorted_one]. intros b [<-|[]]. red. now apply (lt_asym lt' HW').
          - apply Hn1. apply sorted_cons. split; [|apply sorted_one]. intros b [<-|[]]. exact Eza. }
        split.
        + exists (done ++ run'), [], z, rest'. cj; simpl; auto.
          * subst xs. rewrite <- !app_assoc. f_equal. change (run ++ [c] ++ y :: rest) with (run ++ [c; y] ++ rest). exact Er.
          * intros a b [<-|[]] [<-|[]]. apply (eqv_refl lt HW).
          * rewrite app_length. lia.
          * intros k Hk. replace (S (count + k)) with (count + S k) by lia. apply Hg.
            rewrite <- app_assoc. change ([c] ++ y :: rest) with ([c; y] ++ rest). rewrite Er.
            constructor; auto.
        + assert (length run + 2 + length rest = length run' + S (length rest')) as EL.
          { apply (f_equal (@length A)) in Er. rewrite !app_length in Er. simpl in Er. lia. }
          (* the new run starts strictly after y *)
          assert (length run' >= length run + 2) as HL.
          { destruct (Nat.le_gt_cases (length run + 2) (length run')) as [|L]; auto. exfalso.
            apply Hn1. assert (run' ++ [z] = firstn (length run' + 1) (run ++ [c; y])) as ->.
            { transitivity (firstn (length run' + 1) (run' ++ z :: rest')).
              - replace (run' ++ z :: rest') with ((run' ++ [z]) ++ rest') by (now rewrite <- app_assoc).
                rewrite firstn_app. replace (length run' + 1 - length (run' ++ [z])) with 0 by lens.
                rewrite firstn_O, app_nil_r. rewrite firstn_all2; auto. lens.
              - rewrite <- Er. rewrite app_assoc. rewrite firstn_app.
                replace (length run' + 1 - length (run ++ [c; y])) with 0 by lens. rewrite firstn_O. apply app_nil_r. }
            rewrite <- (firstn_skipn (length run' + 1)) in HScy. now apply sorted_prefix in HScy. }
          subst xs. lens. }
    destruct (lt c y) eqn:E2.
    { eapply wp_mono; [apply (K lt); auto|]. intros [[[? ?] ?]|] m' H; exact H. }
    destruct (lt y c) eqn:E3.
    { eapply wp_mono; [apply (K (fun x y => lt y x)); auto|]. intros [[[? ?] ?]|] m' H; exact H. }
    apply wp_ret. split; [|pose proof (nth_lt _ _ _ Hy); lia]. exists done, (run ++ [c]), y, rest.
    assert (forall a, In a (run ++ [c]) -> equivalent lt a y = true) as Hay.
    { intros a Ha. apply (eqv_trans lt HW) with (y := c).
      - apply Heq; auto. apply in_or_app. right. left. auto.
      - apply eqv_spec. split; auto. }
    cj; auto.
    + subst xs. rewrite <- !app_assoc. reflexivity.
    + intros a b Ha Hb. apply in_app_or in Ha as [Ha|[<-|[]]]; apply in_app_or in Hb as [Hb|[<-|[]]]; auto.
      * now rewrite (eqv_sym lt), Hay.
      * apply (eqv_refl lt HW).
    + lens.
    + intros k Hk. apply Hg. rewrite <- app_assoc in Hk. exact Hk.
Qed.
End MonoProbe.
