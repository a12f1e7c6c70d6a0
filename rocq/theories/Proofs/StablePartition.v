(** Stable partition. *)
From Coq Require Import List Arith Lia Permutation Bool ZArith Zify ZifyNat.
From Verif Require Import Lang.Mem Proofs.Wp Model.Rotate Proofs.Rotate Proofs.RotateGcd Model.Buffer Proofs.MergeSort Proofs.Stable
  Model.StablePartition.
Import ListNotations.
Ltac Zify.zify_post_hook ::= Z.to_euclidean_division_equations.

Local Ltac lens := do 4 (simpl length in *; autorewrite with len in *); simpl length in *; try lia.

Local Ltac bufs HB := match goal with |- bufok ?x _ => match type of HB with bufok ?y _ => replace x with y; [exact HB|] end end; lens.

Section Part.
Context {A : Type} (cat : category) (triv : bool) (pred : A -> bool).
Implicit Types (pre post : mem A).
Notation trues := (filter pred).
Notation falses := (filter (fun x => negb (pred x))).

Lemma moved_shift : forall n (t : mem A), Moved :: repeat Moved n ++ t = repeat Moved n ++ Moved :: t.
Proof. induction n as [|n IH]; intros t; auto. simpl. now rewrite IH. Qed.

Lemma trues_falses_length : forall xs, length (trues xs) + length (falses xs) = length xs.
Proof. induction xs as [|x xs IH]; auto. simpl. destruct (pred x); simpl; lia. Qed.

Lemma all_false_filter : forall xs, Forall (fun x => pred x = false) xs -> trues xs = [] /\ falses xs = xs.
Proof.
  induction 1 as [|x xs H HF [E1 E2]]; auto. simpl. rewrite H. simpl. rewrite E1, E2. auto.
Qed.
Lemma all_true_filter : forall xs, Forall (fun x => pred x = true) xs -> trues xs = xs /\ falses xs = [].
Proof.
  induction 1 as [|x xs H HF [E1 E2]]; auto. simpl. rewrite H. simpl. rewrite E1, E2. auto.
Qed.

Lemma partition_buffered_wp : forall x0 mid z pre post f l len b (Q : nat -> mem A -> Prop),
  pred x0 = false -> pred z = true ->
  f = length pre -> l = f + S (length mid) -> len = length mid + 2 -> len <= snd b ->
  bufok (length pre + len + length post) b ->
  (forall xs, xs = x0 :: mid ++ [z] -> Q (f + length (trues xs)) (pre ++ map Val (trues xs ++ falses xs) ++ post ++ repeat Raw (snd b))) ->
  wp (partition_buffered pred f l len b) Q (pre ++ map Val (x0 :: mid ++ [z]) ++ post ++ repeat Raw (snd b)).
Proof.
  intros x0 mid z pre post f l len [base n] Q H0 Hz -> -> -> Hn HB HQ. unfold bufok in HB. cbn [fst snd] in *.
  destruct HB as [HB|HB]; [lia|]. subst base. unfold partition_buffered. cbn [fst snd].
  apply wp_bind. reshape (pre ++ Val x0 :: (map Val (mid ++ [z]) ++ post ++ repeat Raw n)). apply wp_take_at; auto.
  destruct n as [|n]; [lia|].
  apply wp_bind. reshape ((pre ++ Moved :: map Val (mid ++ [z]) ++ post) ++ Raw :: repeat Raw n).
  apply wp_construct_at. { lens. }
  apply wp_bind. apply wp_loop' with
    (I := fun '(f, it, ptr) m => exists a rest, mid = a ++ rest /\ f = length pre + length (trues a) /\ it = length pre + S (length a) /\
        ptr = length pre + (length mid + 2) + length post + S (length (falses a)) /\
        m = pre ++ map Val (trues a) ++ Moved :: repeat Moved (length (falses a)) ++ map Val (rest ++ [z]) ++ post ++
            map Val (x0 :: falses a) ++ repeat Raw (n - length (falses a)))
    (mu := fun '(f, it, ptr) => length pre + S (length mid) - it).
  { exists [], mid. simpl. cj; auto; try lia. rewrite Nat.sub_0_r. solve_app. }
  { lens. }
  { intros [[f it] ptr] m (a & rest & E & -> & -> & -> & ->). subst mid. rewrite app_length in *.
    pose proof (trues_falses_length a) as TF.
    destruct (Nat.eqb_spec (length pre + S (length a)) (length pre + S (length a + length rest))) as [D|D].
    - destruct rest as [|r rest]; [|simpl in D; lia]. clear D.
      apply wp_ret. rewrite app_nil_r in *. change (length (@nil A)) with 0 in *.
      apply wp_bind. reshape ((pre ++ map Val (trues a)) ++ Moved :: repeat Moved (length (falses a)) ++ Val z :: post ++
            map Val (x0 :: falses a) ++ repeat Raw (n - length (falses a))).
      apply wp_move_to_left; try discriminate. { lens. } { lens. }
      set (xs := x0 :: falses a).
      apply wp_bind. apply wp_loop' with
        (I := fun '(t2, it) m => exists b c, xs = b ++ c /\ t2 = length pre + (length a + 0 + 2) + length post + length b /\
           it = S (length pre + length (trues a)) + length b /\
           m = pre ++ map Val (trues a) ++ [Val z] ++ map Val b ++ repeat Moved (length c) ++ post ++ repeat Moved (length b) ++ map Val c ++ repeat Raw (n - length (falses a)))
        (mu := fun '(t2, it) => length pre + (length a + 0 + 2) + length post + length xs - t2).
      { exists [], xs. cj; auto; try (simpl; lia). replace (length xs) with (length (falses a) + 1) by (unfold xs; simpl; lia).
        rewrite repeat_app. solve_app. }
      { unfold xs. simpl length. simpl in Hn. lia. }
      { intros [t2 it] m (b & c & E & -> & -> & ->).
        assert (length xs = S (length (falses a))) as HX by reflexivity.
        assert (length xs = length b + length c) as HX' by (rewrite E; apply app_length).
        destruct (Nat.ltb_spec (length pre + (length a + 0 + 2) + length post + length b)
           (length pre + (length a + 0 + 2) + length post + S (length (falses a)))) as [L|L].
        - destruct c as [|y c]; [simpl in HX'; lia|].
          apply wp_bind. simpl length. change (repeat Moved (S (length c))) with ((@Moved A) :: repeat Moved (length c)).
          reshape ((pre ++ map Val (trues a) ++ [Val z] ++ map Val b) ++ Moved :: (repeat Moved (length c) ++ post ++ repeat Moved (length b)) ++ Val y :: map Val c ++ repeat Raw (n - length (falses a))).
          apply wp_move_to_left; try discriminate. { lens. } { simpl in HX'. lens. }
          apply wp_ret. split; [|simpl in HX'; lia]. exists (b ++ [y]), c. rewrite <- app_assoc. cj; auto; lens.
          rewrite !repeat_app. solve_app.
        - destruct c as [|y c]; [|simpl in HX'; lia]. rewrite app_nil_r in E. subst b. apply wp_ret.
          apply wp_bind. reshape ((pre ++ map Val (trues a) ++ [Val z] ++ map Val xs ++ post) ++ repeat Moved (length xs) ++ repeat Raw (n - length (falses a))).
          apply destroy_n_seg; try lens.
          { apply Forall_forall. intros c Hc. apply repeat_spec in Hc. subst c. discriminate. }
          rewrite ?repeat_length. apply wp_ret.
          specialize (HQ (x0 :: a ++ [z]) eq_refl). simpl in HQ. rewrite H0 in HQ. rewrite !filter_app in HQ. simpl in HQ. rewrite Hz in HQ. simpl in HQ.
          rewrite !app_nil_r in HQ. rewrite app_length in HQ. simpl in HQ.
          replace (S (length pre + length (trues a))) with (length pre + (length (trues a) + 1)) by lia.
          match goal with |- Q _ ?m => match type of HQ with Q _ ?m' => replace m with m'; [exact HQ|] end end.
          unfold xs. rewrite <- !app_assoc, !map_app, <- !app_assoc. simpl app. simpl map. do 5 f_equal. f_equal. f_equal.
          change (length (x0 :: falses a)) with (S (length (falses a))). 
          change (Raw :: repeat Raw n) with (repeat (@Raw A) (S n)).
          rewrite <- repeat_app. f_equal. simpl in Hn. lia. }
    - destruct rest as [|r rest]; [simpl in D; lia|].
      apply wp_bind.
      reshape ((pre ++ map Val (trues a) ++ Moved :: repeat Moved (length (falses a))) ++ Val r :: map Val (rest ++ [z]) ++ post ++
            map Val (x0 :: falses a) ++ repeat Raw (n - length (falses a))).
      apply wp_get_at. { lens. }
      destruct (pred r) eqn:Er.
      + apply wp_bind. reshape ((pre ++ map Val (trues a)) ++ Moved :: repeat Moved (length (falses a)) ++ Val r :: map Val (rest ++ [z]) ++ post ++
            map Val (x0 :: falses a) ++ repeat Raw (n - length (falses a))).
        apply wp_move_to_left; try discriminate. { lens. } { lens. }
        apply wp_ret. split; [|simpl length; lia]. exists (a ++ [r]), rest. rewrite <- app_assoc. rewrite !filter_app. simpl. rewrite Er. simpl.
        rewrite !app_nil_r. cj; auto; lens.
        rewrite (moved_shift (length (falses a))). solve_app.
      + apply wp_bind. apply wp_take_at. { lens. }
        apply wp_bind. simpl in Hn.
        replace (n - length (falses a)) with (1 + (n - S (length (falses a)))) by lia.
        rewrite repeat_app.
        reshape ((pre ++ map Val (trues a) ++ Moved :: repeat Moved (length (falses a)) ++ Moved :: map Val (rest ++ [z]) ++ post ++
            map Val (x0 :: falses a)) ++ Raw :: repeat Raw (n - S (length (falses a)))).
        apply wp_construct_at. { lens. }
        apply wp_ret. split; [|simpl length; lia]. exists (a ++ [r]), rest. rewrite <- app_assoc. rewrite !filter_app. simpl. rewrite Er. simpl.
        rewrite !app_nil_r. cj; auto; lens.
        replace (length (falses a) + 1) with (S (length (falses a))) by lia.
        replace (repeat Moved (S (length (falses a)))) with (repeat (@Moved A) (length (falses a)) ++ [Moved]) by (rewrite <- repeat_cons; reflexivity).
        solve_app. }
Qed.

(** The first half up to its last true. *)
Lemma scan_back_wp : forall xs pre post f m n (Q : option (nat * nat) -> mem A -> Prop), xs <> [] ->
  f = length pre -> m = f + length xs -> n = length xs ->
  (Forall (fun x => pred x = false) xs -> Q None (pre ++ map Val xs ++ post)) ->
  (forall a z b, xs = a ++ z :: b -> pred z = true -> Forall (fun x => pred x = false) b ->
     Q (Some (f + length a, S (length a))) (pre ++ map Val xs ++ post)) ->
  wp (scan_back pred f m n) Q (pre ++ map Val xs ++ post).
Proof.
  intros xs pre post f m n Q HX -> -> -> HN HS. unfold scan_back. apply wp_loop' with
    (I := fun '(m, n) mm => exists a b, xs = a ++ b /\ a <> [] /\ m = length pre + length a /\ n = length a /\ Forall (fun x => pred x = false) b /\
       mm = pre ++ map Val xs ++ post)
    (mu := fun '(m, n) => n).
  - exists xs, []. rewrite app_nil_r. cj; auto.
  - lia.
  - intros [m n] mm (a & b & -> & Ha & -> & -> & Hb & ->).
    destruct (exists_last Ha) as (a' & z & ->). lens.
    apply wp_bind. reshape ((pre ++ map Val a') ++ Val z :: map Val b ++ post). apply wp_get_at. { lens. }
    destruct (pred z) eqn:Ez.
    + apply wp_ret. specialize (HS a' z b). rewrite <- app_assoc in HS.
      replace (length pre + (length a' + 1) - 1) with (length pre + length a') by lia. replace (length a' + 1) with (S (length a')) by lia.
      match goal with |- Q ?x ?m => match type of HS with _ -> _ -> _ -> Q ?x ?m' => replace m with m'; [apply HS; auto|] end end. solve_app.
    + destruct (Nat.eqb_spec (length pre + (length a' + 1) - 1) (length pre)) as [D|D].
      * destruct a' as [|y a']; [|simpl in D; lia]. apply wp_ret.
        match goal with |- Q ?x ?m => match type of HN with _ -> Q ?x ?m' => replace m with m'; [apply HN; simpl; auto|] end end. solve_app.
      * apply wp_ret. split; [|lia]. exists a', (z :: b). cj; auto; try lia.
        -- now rewrite <- app_assoc.
        -- intros ->. simpl in D. lia.
        -- solve_app.
Qed.

(** The second half from its first false on; its last element is a true. *)
Lemma scan_forth_wp : forall xs z pre post m l n (Q : option (nat * nat) -> mem A -> Prop), xs <> [] -> pred z = true ->
  m = length pre -> l = m + length xs -> n = S (length xs) ->
  (Forall (fun x => pred x = true) xs -> Q None (pre ++ map Val (xs ++ [z]) ++ post)) ->
  (forall a y b, xs = a ++ y :: b -> pred y = false -> Forall (fun x => pred x = true) a ->
     Q (Some (m + length a, length b + 2)) (pre ++ map Val (xs ++ [z]) ++ post)) ->
  wp (scan_forth pred l m n) Q (pre ++ map Val (xs ++ [z]) ++ post).
Proof.
  intros xs z pre post m l n Q HX Hz -> -> -> HN HS. unfold scan_forth. apply wp_loop' with
    (I := fun '(m, n) mm => exists a b, xs = a ++ b /\ b <> [] /\ m = length pre + length a /\ n = S (length b) /\ Forall (fun x => pred x = true) a /\
       mm = pre ++ map Val (xs ++ [z]) ++ post)
    (mu := fun '(m, n) => n).
  - exists [], xs. cj; auto.
  - lia.
  - intros [m n] mm (a & b & -> & Hb & -> & -> & Ha & ->).
    destruct b as [|y b]; [congruence|]. lens.
    apply wp_bind. reshape ((pre ++ map Val a) ++ Val y :: map Val (b ++ [z]) ++ post). apply wp_get_at. { lens. }
    destruct (pred y) eqn:Ey.
    + destruct (Nat.eqb_spec (S (length pre + length a)) (length pre + (length a + S (length b)))) as [D|D].
      * destruct b as [|y' b]; [|simpl in D; lia]. apply wp_ret.
        match goal with |- Q ?x ?m => match type of HN with _ -> Q ?x ?m' => replace m with m'; [apply HN|] end end.
        { apply Forall_app. auto. } solve_app.
      * apply wp_ret. split; [|lia]. exists (a ++ [y]), b. cj; auto; lens.
        -- now rewrite <- app_assoc.
        -- intros ->. simpl in D. lia.
        -- apply Forall_app. auto.
        -- solve_app.
    + apply wp_ret. specialize (HS a y b eq_refl Ey Ha). replace (S (S (length b))) with (length b + 2) by lia.
      match goal with |- Q ?x ?m => match type of HS with Q ?x ?m' => replace m with m'; [exact HS|] end end. solve_app.
Qed.

Lemma stable_partition_rec_wp : forall fuel x0 mid z pre post f l len b (Q : nat -> mem A -> Prop),
  pred x0 = false -> pred z = true -> len < fuel ->
  f = length pre -> l = f + S (length mid) -> len = length mid + 2 ->
  bufok (length pre + len + length post) b ->
  (forall xs, xs = x0 :: mid ++ [z] -> Q (f + length (trues xs)) (pre ++ map Val (trues xs ++ falses xs) ++ post ++ repeat Raw (snd b))) ->
  wp (stable_partition_rec cat triv pred fuel f l len b) Q (pre ++ map Val (x0 :: mid ++ [z]) ++ post ++ repeat Raw (snd b)).
Proof.
  induction fuel as [|fuel IH]; intros x0 mid z pre post f l len b Q H0 Hz HF -> -> HL HB HQ; [lia|].
  specialize (HQ _ eq_refl). subst len. cbn [stable_partition_rec].
  destruct (Nat.eqb_spec (length mid + 2) 2) as [E2|E2].
  { destruct mid as [|]; [|simpl in E2; lia]. simpl in HQ. rewrite H0, Hz in HQ. simpl in HQ.
    apply wp_bind. reshape (pre ++ Val x0 :: [] ++ Val z :: post ++ repeat Raw (snd b)). apply wp_swap_at; try lens.
    apply wp_ret. exact HQ. }
  destruct (Nat.eqb_spec (length mid + 2) 3) as [E3|E3].
  { destruct mid as [|y [|]]; simpl in E3; try lia. clear E2 E3. simpl in HQ. rewrite H0, Hz in HQ. simpl in HQ.
    apply wp_bind. reshape ((pre ++ [Val x0]) ++ Val y :: Val z :: post ++ repeat Raw (snd b)). apply wp_get_at. { lens. }
    destruct (pred y); simpl in HQ.
    - apply wp_bind. reshape (pre ++ Val x0 :: [] ++ Val y :: Val z :: post ++ repeat Raw (snd b)). apply wp_swap_at; try lens.
      apply wp_bind. reshape ((pre ++ [Val y]) ++ Val x0 :: [] ++ Val z :: post ++ repeat Raw (snd b)). apply wp_swap_at; try lens.
      apply wp_ret. replace ((pre ++ [Val y]) ++ Val z :: [] ++ Val x0 :: post ++ repeat Raw (snd b)) with
        (pre ++ Val y :: Val z :: Val x0 :: post ++ repeat Raw (snd b)) by solve_app. exact HQ.
    - apply wp_bind. reshape ((pre ++ [Val x0]) ++ Val y :: [] ++ Val z :: post ++ repeat Raw (snd b)). apply wp_swap_at; try lens.
      apply wp_bind. reshape (pre ++ Val x0 :: [] ++ Val z :: Val y :: post ++ repeat Raw (snd b)). apply wp_swap_at; try lens.
      apply wp_ret. replace (S (length pre)) with (length pre + 1) by lia. exact HQ. }
  destruct (Nat.leb_spec (length mid + 2) (snd b)) as [LB|LB].
  { apply partition_buffered_wp; auto. intros xs ->. auto. }
  assert (4 <= length mid + 2) as H4 by lia. clear E2 E3 LB.
  set (len2 := (length mid + 2) / 2).
  assert (2 <= len2 /\ len2 <= length mid) as [L1 L2] by (unfold len2; lia).
  (* the two halves *)
  set (P := x0 :: firstn (len2 - 1) mid). set (R := skipn (len2 - 1) mid).
  assert (x0 :: mid ++ [z] = P ++ R ++ [z]) as EX.
  { unfold P, R. simpl. rewrite app_assoc, firstn_skipn. auto. }
  assert (length P = len2) as LP. { unfold P. simpl. rewrite firstn_length. lia. }
  assert (length R = length mid + 1 - len2) as LR. { unfold R. rewrite skipn_length. lia. }
  assert (hd_error P = Some x0) as HH by reflexivity. clearbody P R.
  rewrite EX in *.
  assert (R <> []) as HR. { intros E. rewrite E in LR. simpl in LR. lia. }
  assert (P <> []) as HP by (intros ->; discriminate).
  apply wp_bind. reshape (pre ++ map Val P ++ (map Val (R ++ [z]) ++ post ++ repeat Raw (snd b))).
  set (R1 := fun (ff : nat) m => ff = length pre + length (trues P) /\
    m = pre ++ map Val (trues P ++ falses P) ++ (map Val (R ++ [z]) ++ post ++ repeat Raw (snd b))).
  set (R2 := fun (sf : nat) m => sf = length pre + len2 + length (trues (R ++ [z])) /\
    m = (pre ++ map Val (trues P ++ falses P)) ++ map Val (trues (R ++ [z]) ++ falses (R ++ [z])) ++ post ++ repeat Raw (snd b)).
  pose proof (trues_falses_length P) as TP. pose proof (trues_falses_length (R ++ [z])) as TR. rewrite app_length in TR. simpl in TR.
  assert (forall ff m, R1 ff m -> wp (let* o := scan_forth pred (length pre + S (length mid)) (length pre + len2) (length mid + 2 - len2) in
      let* second_false := match o with Some (m1, len_half) => stable_partition_rec cat triv pred fuel m1 (length pre + S (length mid)) len_half b
        | None => ret (S (length pre + S (length mid))) end in rotate cat triv ff (length pre + len2) second_false) Q m) as SECOND.
  { intros ff m (-> & ->).
    assert (forall sf m, R2 sf m -> wp (rotate cat triv (length pre + length (trues P)) (length pre + len2) sf) Q m) as THIRD.
    { intros sf m (-> & ->).
      reshape ((pre ++ map Val (trues P)) ++ map Val (falses P ++ trues (R ++ [z])) ++ (map Val (falses (R ++ [z])) ++ post ++ repeat Raw (snd b))).
      apply rotate_wp; [lens..|].
      rewrite (filter_app pred P), (filter_app _ P) in HQ. rewrite app_length in HQ. rewrite Nat.add_assoc in HQ.
      match goal with |- Q _ ?m => match type of HQ with Q _ ?m' => replace m with m'; [exact HQ|] end end. solve_app. }
    apply wp_bind. reshape ((pre ++ map Val (trues P ++ falses P)) ++ map Val (R ++ [z]) ++ post ++ repeat Raw (snd b)).
    apply scan_forth_wp; auto; try lens.
    - intros HF'. apply wp_bind, wp_ret. apply THIRD. 
      assert (Forall (fun x => pred x = true) (R ++ [z])) as HA. { apply Forall_app. auto. }
      destruct (all_true_filter _ HA) as [A1 A2]. split.
      + rewrite A1. lens.
      + rewrite A1, A2, app_nil_r. auto.
    - intros a y c ER Ey Ha. apply wp_bind.
      reshape ((pre ++ map Val (trues P ++ falses P ++ a)) ++ map Val (y :: c ++ [z]) ++ post ++ repeat Raw (snd b)).
      { rewrite ER. solve_app. }
      rewrite ER in LR, TR. rewrite app_length in LR, TR. simpl in LR, TR.
      destruct (all_true_filter _ Ha) as [A1 A2].
      apply IH; auto; try lens.
      { bufs HB. }
      intros xs ->. apply THIRD. unfold R2. rewrite ER, <- app_assoc. split.
      + simpl. rewrite !filter_app. simpl. rewrite !filter_app, Ey, A1. simpl. lens.
      + rewrite (filter_app pred a), (filter_app _ a), A1, A2. solve_app. }
  apply scan_back_wp; auto; try lens.
  - intros HF'. apply wp_bind, wp_ret. apply SECOND. destruct (all_false_filter _ HF') as [A1 A2]. unfold R1. rewrite A1, A2. split; auto; simpl; lia.
  - intros a y c EP Ey Hc. apply wp_bind.
    destruct a as [|x0' a].
    { exfalso. rewrite EP in HH. simpl in HH. congruence. }
    assert (x0' = x0) as -> by (rewrite EP in HH; simpl in HH; congruence).
    reshape (pre ++ map Val (x0 :: a ++ [y]) ++ (map Val (c ++ R ++ [z]) ++ post) ++ repeat Raw (snd b)).
    { rewrite EP. solve_app. }
    destruct (all_false_filter _ Hc) as [A1 A2].
    rewrite EP in LP, TP. simpl in LP, TP. rewrite app_length in LP. simpl in LP.
    apply IH; auto; try lens.
    { bufs HB. }
    intros xs ->. apply SECOND. unfold R1. rewrite EP. split.
    + replace ((x0 :: a) ++ y :: c) with ((x0 :: a ++ [y]) ++ c) by solve_app.
      rewrite (filter_app pred (x0 :: a ++ [y])), A1, app_nil_r. auto.
    + replace ((x0 :: a) ++ y :: c) with ((x0 :: a ++ [y]) ++ c) by solve_app.
      rewrite (filter_app pred (x0 :: a ++ [y])), (filter_app _ (x0 :: a ++ [y])), A1, A2, app_nil_r. solve_app.
Qed.

Lemma stable_partition_wp : forall o xs pre post f l n (Q : nat -> mem A -> Prop),
  f = length pre -> l = f + length xs -> n = length xs ->
  Q (f + length (trues xs)) (pre ++ map Val (trues xs ++ falses xs) ++ post) ->
  wp (stable_partition cat triv pred o f l n) Q (pre ++ map Val xs ++ post).
Proof.
  intros o xs pre post f l n Q -> -> -> HQ. unfold stable_partition.
  apply wp_bind. apply wp_loop' with
    (I := fun '(f, n) m => exists a b, xs = a ++ b /\ Forall (fun x => pred x = true) a /\ f = length pre + length a /\ n = length b /\
       m = pre ++ map Val xs ++ post)
    (mu := fun '(f, n) => n).
  { exists [], xs. cj; auto. }
  { lia. }
  intros [f n] m (a & b & -> & Ha & -> & -> & ->). destruct (all_true_filter _ Ha) as [A1 A2].
  rewrite (filter_app pred), (filter_app _ a b), A1, A2 in HQ. simpl app in HQ.
  destruct (Nat.eqb_spec (length pre + length a) (length pre + length (a ++ b))) as [D|D].
  { destruct b as [|]; [|lens]. apply wp_ret. apply wp_ret. simpl in HQ. rewrite !app_nil_r in *. auto. }
  destruct b as [|x0 b]; [lens|]. clear D.
  apply wp_bind. reshape ((pre ++ map Val a) ++ Val x0 :: map Val b ++ post). apply wp_get_at. { lens. }
  destruct (pred x0) eqn:E0; simpl negb; cbv iota.
  { apply wp_ret. split; [|lens]. exists (a ++ [x0]), b. rewrite <- app_assoc. cj; auto; lens.
    - apply Forall_app. auto.
    - solve_app. }
  apply wp_ret. simpl in HQ. rewrite E0 in HQ. simpl in HQ. lens.
  apply wp_bind. apply wp_loop' with
    (I := fun '(l, n) m => exists b' c, x0 :: b = b' ++ c /\ b' <> [] /\ Forall (fun x => pred x = false) c /\ l = length pre + length a + length b' /\
        n = length b' /\ m = (pre ++ map Val a) ++ Val x0 :: map Val b ++ post)
    (mu := fun '(l, n) => n).
  { exists (x0 :: b), []. rewrite app_nil_r. cj; auto; lens. discriminate. }
  { lia. }
  intros [l n] m (b' & c & EB & Hb' & Hc & -> & -> & ->).
  destruct (exists_last Hb') as (b'' & z & ->). clear Hb'. rewrite app_length. simpl length.
  destruct (all_false_filter _ Hc) as [C1 C2].
  destruct (Nat.eqb_spec (length pre + length a) (length pre + length a + (length b'' + 1) - 1)) as [D|D].
  { destruct b'' as [|]; [|simpl in D; lia]. simpl in EB. injection EB as -> ->. apply wp_ret. apply wp_ret.
    rewrite C1, C2 in HQ. rewrite app_nil_r in HQ. change (length (@nil A)) with 0 in HQ. rewrite Nat.add_0_r in HQ.
    match goal with |- Q _ ?m => match type of HQ with Q _ ?m' => replace m with m'; [exact HQ|] end end. solve_app. }
  destruct b'' as [|x0' mid]; [simpl in D; lia|]. clear D. simpl in EB. injection EB as <- EB. subst b.
  apply wp_bind. reshape ((pre ++ map Val (a ++ x0 :: mid)) ++ Val z :: map Val c ++ post). apply wp_get_at. { lens. }
  destruct (pred z) eqn:Ez; simpl negb; cbv iota.
  2:{ apply wp_ret. split; [|lia]. exists (x0 :: mid), (z :: c). cj; auto; lens.
      - now rewrite <- app_assoc.
      - discriminate.
      - solve_app. }
  apply wp_ret. apply wp_bind.
  set (m0 := (pre ++ map Val a) ++ map Val (x0 :: mid ++ [z]) ++ (map Val c ++ post)).
  replace ((pre ++ map Val (a ++ x0 :: mid)) ++ Val z :: map Val c ++ post) with (m0 ++ repeat Raw (snd null_buffer))
    by (unfold m0, null_buffer; simpl; solve_app).
  assert (length m0 = length (pre ++ map Val a) + (length mid + 2) + length (map Val c ++ post)) as Lm0 by (unfold m0; lens).
  assert (forall b0, bufok (length m0) b0 -> wp (let* r := stable_partition_rec cat triv pred (S (length (x0 :: mid) + 1 - 1 + 1)) (length pre + length a)
        (length pre + length a + (length (x0 :: mid) + 1) - 1) (length (x0 :: mid) + 1 - 1 + 1) b0 in return_temporary_buffer b0;; ret r) Q (m0 ++ repeat Raw (snd b0))) as REC.
  { intros b0 HB. apply wp_bind. unfold m0.
    reshape ((pre ++ map Val a) ++ map Val (x0 :: mid ++ [z]) ++ (map Val c ++ post) ++ repeat Raw (snd b0)).
    rewrite Lm0 in HB.
    apply stable_partition_rec_wp; auto; try lens.
    { bufs HB. }
    intros xs ->. apply wp_bind.
    match goal with |- wp _ _ (?p ++ map Val ?t ++ (?c ++ ?q) ++ ?r) => reshape ((p ++ map Val t ++ c ++ q) ++ r) end.
    apply return_temporary_buffer_wp.
    { match goal with |- bufok ?x _ => match type of HB with bufok ?y _ => replace x with y; auto end end.
      pose proof (trues_falses_length (x0 :: mid ++ [z])). lens. }
    assert (trues (x0 :: mid ++ [z]) = trues mid ++ [z] /\ falses (x0 :: mid ++ [z]) = x0 :: falses mid /\
      trues ((mid ++ [z]) ++ c) = trues mid ++ [z] /\ falses ((mid ++ [z]) ++ c) = falses mid ++ c) as (T1 & T2 & T3 & T4).
    { simpl. rewrite E0, !filter_app, C1, C2. simpl. rewrite Ez. simpl. rewrite ?app_nil_r. auto. }
    rewrite T3, T4 in HQ. apply wp_ret. rewrite T1, T2.
    match goal with |- Q ?n ?m => match type of HQ with Q ?n' ?m' => replace n with n' by lens; replace m with m' by solve_app; exact HQ end end. }
  destruct (Nat.leb_spec 4 (length (x0 :: mid) + 1 - 1 + 1)) as [L4|L4].
  - apply try_grow_wp. { left; auto. } intros b0 HB _ _. apply REC; auto.
  - apply wp_ret. apply REC. left; auto.
Qed.
End Part.
