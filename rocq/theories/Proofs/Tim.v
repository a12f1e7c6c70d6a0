(** Timsort and adaptive Shivers sort. *)
From Coq Require Import List Arith Lia Permutation Bool ZArith.
From Verif Require Import Spec.Order Lang.Mem Spec.Sorts Proofs.Wp Proofs.OrderLib Model.Basic Proofs.Basic Model.Rotate Proofs.Rotate
  Model.Search Proofs.Search Proofs.Indirect Model.Buffer Model.Select Proofs.IndexLib Proofs.MergeLib Proofs.Stable Model.Tim.
Import ListNotations.

Lemma tim_assert : forall A b (Q : unit -> mem A -> Prop) m, b = true -> Q tt m -> wp (assert b) Q m.
Proof. intros A b Q m -> HQ. apply wp_ret. auto. Qed.
Ltac asrt := apply wp_bind, tim_assert; [first [apply Nat.ltb_lt|apply Nat.leb_le|apply Nat.eqb_eq]; try (lens; fail); try lia|].

Section Gallop.
Context {A : Type} (P : A -> bool).

Lemma part_at_window : forall a mid b u v, part_at P mid u v ->
  (forall a' x, a = a' ++ [x] -> P x = true) -> (forall x b', b = x :: b' -> P x = false) ->
  part_at P (a ++ mid ++ b) (a ++ u) (v ++ b).
Proof.
  intros a mid b u v [-> Hp] Ha Hb. split. { now rewrite !app_assoc. }
  intros HM.
  assert (forall i j x y, i < j -> nth_error ((a ++ u) ++ v ++ b) i = Some x -> nth_error ((a ++ u) ++ v ++ b) j = Some y -> P y = true -> P x = true) as HM'.
  { replace ((a ++ u) ++ v ++ b) with (a ++ (u ++ v) ++ b) by now rewrite !app_assoc. exact HM. }
  destruct Hp as [H1 H2].
  { intros i j x y Hij Hi Hj. apply (HM (length a + i) (length a + j)); [lia| |].
    - rewrite nth_error_app2 by lia. replace (length a + i - length a) with i by lia. rewrite nth_error_app1; auto. eapply nth_lt; eauto.
    - rewrite nth_error_app2 by lia. replace (length a + j - length a) with j by lia. rewrite nth_error_app1; auto. eapply nth_lt; eauto. }
  split; intros x Hx; apply in_app_or in Hx as [Hx|Hx]; auto.
  - destruct a as [|z a] using rev_ind; [destruct Hx|]. clear IHa. specialize (Ha _ _ eq_refl).
    apply in_app_or in Hx as [Hx|[<-|[]]]; auto. apply In_nth_error in Hx as (i & Hi). pose proof (nth_lt _ _ _ Hi).
    apply (HM i (length a) x z); auto.
    + rewrite <- app_assoc. rewrite nth_error_app1; auto.
    + rewrite <- app_assoc. rewrite nth_error_app2 by lia. now rewrite Nat.sub_diag.
  - destruct b as [|z b]; [destruct Hx|]. specialize (Hb _ _ eq_refl). destruct Hx as [<-|Hx]; auto. destruct (P x) eqn:E; auto.
    rewrite <- Hb. apply In_nth_error in Hx as (i & Hi). symmetry.
    apply (HM (length (a ++ u ++ v)) (length (a ++ u ++ v) + S i) z x); auto; try lia.
    + rewrite app_assoc. rewrite nth_error_app2 by lia. now rewrite Nat.sub_diag.
    + rewrite app_assoc. rewrite nth_error_app2 by lia. replace (length (a ++ u ++ v) + S i - length (a ++ u ++ v)) with (S i) by lia. auto.
Qed.

Lemma gallop_loop_wp : forall (cond : nat -> M A bool) mx m (C : nat -> bool) (Q : nat * nat -> mem A -> Prop), 0 < mx ->
  (forall i (R : bool -> mem A -> Prop), i < mx -> R (C i) m -> wp (cond i) R m) -> C 0 = true ->
  (forall lo hi, lo < hi -> hi <= mx -> lo < mx -> C lo = true -> (hi < mx -> C hi = false) -> Q (lo, hi) m) ->
  wp (gallop_loop cond mx) Q m.
Proof.
  intros cond mx m C Q Hmx Hcond H0 HQ. unfold gallop_loop.
  apply wp_loop' with (I := fun '(lo, hi) m' => m' = m /\ lo < hi /\ lo < mx /\ C lo = true) (mu := fun '(lo, hi) => mx - lo).
  - cj; auto.
  - lia.
  - intros [lo hi] m' (-> & H1 & H2 & H3). destruct (Nat.ltb_spec hi mx) as [Hh|Hh].
    + apply wp_bind. apply Hcond; auto. destruct (C hi) eqn:E.
      * apply wp_ret. cj; auto; lia.
      * apply wp_ret. apply HQ; auto; lia.
    + apply wp_ret. apply HQ; auto; lia.
Qed.

Variable bound : nat -> nat -> M A nat.
Hypothesis Hbound : forall xs pre post f l (Q : nat -> mem A -> Prop), f = length pre -> l = f + length xs ->
  (forall u v, part_at P xs u v -> Q (f + length u) (pre ++ map Val xs ++ post)) -> wp (bound f l) Q (pre ++ map Val xs ++ post).

Lemma window_wp : forall xs pre post lo hi (Q : nat -> mem A -> Prop), lo <= hi -> hi <= length xs ->
  (forall x, 0 < lo -> nth_error xs (lo - 1) = Some x -> P x = true) -> (forall x, nth_error xs hi = Some x -> P x = false) ->
  (forall u v, part_at P xs u v -> Q (length u) (pre ++ map Val xs ++ post)) ->
  wp (let* r := bound (length pre + lo) (length pre + hi) in ret (r - length pre)) Q (pre ++ map Val xs ++ post).
Proof.
  intros xs pre post lo hi Q H1 H2 H3 H4 HQ.
  assert (exists a mid b, xs = a ++ mid ++ b /\ length a = lo /\ length mid = hi - lo) as (a & mid & b & -> & Ha & Hm).
  { exists (firstn lo xs), (firstn (hi - lo) (skipn lo xs)), (skipn (hi - lo) (skipn lo xs)). cj.
    - now rewrite !firstn_skipn.
    - rewrite firstn_length. lia.
    - rewrite firstn_length, skipn_length. lia. }
  apply wp_bind. reshape ((pre ++ map Val a) ++ map Val mid ++ map Val b ++ post).
  apply Hbound; [lens|lens|]. intros u v Hp. apply wp_ret.
  replace ((pre ++ map Val a) ++ map Val mid ++ map Val b ++ post) with (pre ++ map Val (a ++ mid ++ b) ++ post) by solve_app.
  replace (length pre + lo + length u - length pre) with (length (a ++ u)) by (rewrite app_length; lia).
  apply HQ with (v ++ b). apply part_at_window; auto.
  - intros a' x ->. apply H3; [lens|]. rewrite <- app_assoc. rewrite nth_error_app2 by lens.
    replace (lo - 1 - length a') with 0 by lens. auto.
  - intros x b' ->. apply H4. rewrite nth_error_app2 by lens. rewrite nth_error_app2 by lens. replace (hi - length a - length mid) with 0 by lens. auto.
Qed.

Lemma gallop_wp : forall xs pre post hint base len (Q : nat -> mem A -> Prop), base = length pre -> len = length xs -> hint < length xs ->
  (forall u v, part_at P xs u v -> Q (length u) (pre ++ map Val xs ++ post)) ->
  wp (gallop P bound base len hint) Q (pre ++ map Val xs ++ post).
Proof.
  intros xs pre post hint base len Q -> -> Hh HQ. unfold gallop. asrt. asrt.
  destruct (nth_some _ xs hint Hh) as (x & Hx). apply wp_bind. apply wp_get_list with (x := x); auto.
  destruct (P x) eqn:Ex.
  - apply wp_bind. apply gallop_loop_wp with (C := fun i => match nth_error xs (hint + i) with Some y => P y | None => true end); try lia.
    + intros i R Hi HR. destruct (nth_some _ xs (hint + i)) as (y & Hy); [lia|]. apply wp_bind. apply wp_get_list with (x := y); auto.
      rewrite Hy in HR. apply wp_ret. auto.
    + now rewrite Nat.add_0_r, Hx.
    + intros lo hi H1 H2 H3 Hlo Hhi. asrt. asrt. rewrite (Nat.add_comm hi). apply window_wp; auto; try lia.
      * intros y _ Hy. replace (S (lo + hint) - 1) with (hint + lo) in Hy by lia. now rewrite Hy in Hlo.
      * intros y Hy. assert (hi < length xs - hint) as Hlt by (apply nth_lt in Hy; lia). specialize (Hhi Hlt). now rewrite Hy in Hhi.
  - apply wp_bind. apply gallop_loop_wp with (C := fun i => match nth_error xs (hint - i) with Some y => negb (P y) | None => true end); try lia.
    + intros i R Hi HR. destruct (nth_some _ xs (hint - i)) as (y & Hy); [lia|]. apply wp_bind. apply wp_get_list with (x := y); auto.
      rewrite Hy in HR. apply wp_ret. auto.
    + now rewrite Nat.sub_0_r, Hx, Ex.
    + intros lo hi H1 H2 H3 Hlo Hhi. asrt. asrt. apply window_wp; auto; try lia.
      * intros y H0 Hy. assert (hi < S hint) as Hlt by lia. specialize (Hhi Hlt). replace (S hint - hi - 1) with (hint - hi) in Hy by lia.
        rewrite Hy in Hhi. now apply negb_false_iff in Hhi.
      * intros y Hy. rewrite Hy in Hlo. now apply negb_true_iff in Hlo.
Qed.
End Gallop.

Section Tim.
Context {A T : Type} (comp : T -> T -> bool) (proj : A -> T).
Notation lt := (by_proj comp proj).
Variable ord : Prop.
Hypothesis HORD : ord -> strict_weak_order lt.
Variable strict : bool.
Hypothesis HSTR : strict = true -> ord.
Notation st := (st lt ord).
Notation le := (OrderLib.le lt).
Notation live := (fun c : cell A => c <> Raw).
Implicit Types (pre post L R : mem A) (xs : list A).

Lemma gallop_left_wp : forall xs pre post hint base len z (Q : nat -> mem A -> Prop), base = length pre -> len = length xs -> hint < length xs ->
  (forall u v, xs = u ++ v -> (ord -> sorted lt xs -> (forall x, In x u -> lt x z = true) /\ (forall x, In x v -> le z x)) ->
    Q (length u) (pre ++ map Val xs ++ post)) ->
  wp (gallop_left comp proj (proj z) base len hint) Q (pre ++ map Val xs ++ post).
Proof.
  intros xs pre post hint base len z Q -> -> Hh HQ. unfold gallop_left. apply gallop_wp; auto.
  - intros. apply lower_bound_wp; auto.
  - intros u v [E Hp]. apply HQ with v; auto. intros Ho HS. apply Hp. apply (mono_lt lt (HORD Ho) xs z HS).
Qed.
Lemma gallop_right_wp : forall xs pre post hint base len z (Q : nat -> mem A -> Prop), base = length pre -> len = length xs -> hint < length xs ->
  (forall u v, xs = u ++ v -> (ord -> sorted lt xs -> (forall x, In x u -> le x z) /\ (forall x, In x v -> lt z x = true)) ->
    Q (length u) (pre ++ map Val xs ++ post)) ->
  wp (gallop_right comp proj (proj z) base len hint) Q (pre ++ map Val xs ++ post).
Proof.
  intros xs pre post hint base len z Q -> -> Hh HQ. unfold gallop_right. apply gallop_wp; auto.
  - intros. apply upper_bound_wp; auto.
  - intros u v [E Hp]. apply HQ with v; auto. intros Ho HS. destruct (Hp (mono_ngt lt (HORD Ho) xs z HS)) as [H1 H2]. split; intros x Hx.
    + specialize (H1 x Hx). now apply negb_true_iff in H1.
    + specialize (H2 x Hx). now apply negb_false_iff in H2.
Qed.

(** ** Runs *)
Lemma binary_shift_wp : forall v L R pos start (Q : unit -> mem A -> Prop), pos = length L -> start = pos + length v ->
  (forall c, c <> Raw -> Q tt (L ++ c :: map Val v ++ R)) ->
  wp (binary_shift pos start) Q (L ++ map Val v ++ Moved :: R).
Proof.
  intros v L R pos start Q -> -> HQ. unfold binary_shift.
  apply wp_loop' with (I := fun p m => exists a b c, v = a ++ b /\ p = length L + length a /\ c <> Raw /\ m = L ++ map Val a ++ c :: map Val b ++ R)
    (mu := fun p => p - length L).
  - exists v, [], Moved. cj; auto; [now rewrite app_nil_r|discriminate].
  - lia.
  - intros p m (a & b & c & -> & -> & Hc & ->). destruct (Nat.ltb_spec (length L) (length L + length a)) as [H|H].
    + destruct a as [|y a] using rev_ind; [simpl in H; lia|]. clear IHa. rewrite app_length. cbn [length].
      apply wp_bind. reshape ((L ++ map Val a) ++ Val y :: [] ++ c :: map Val b ++ R). apply wp_move_to_right; [lens|lens|auto|].
      apply wp_ret. split; [|lens]. exists a, (y :: b), Moved. cj; [solve_app|lens|discriminate|solve_app].
    + destruct a; [|simpl in H; lia]. apply wp_ret. simpl. auto.
Qed.

Lemma binary_sort_wp : forall a b pre post lo hi start (Q : unit -> mem A -> Prop), (ord -> sorted lt a) ->
  lo = length pre -> start = lo + length a -> hi = start + length b ->
  (forall ys, stable_rel lt ord (a ++ b) ys -> Q tt (pre ++ map Val ys ++ post)) ->
  wp (binary_sort comp proj lo hi start) Q (pre ++ map Val (a ++ b) ++ post).
Proof.
  intros a b pre post lo hi start Q Ha -> -> -> HQ. unfold binary_sort. asrt. asrt.
  set (st0 := if length pre + length a =? length pre then S (length pre + length a) else length pre + length a).
  assert ((length a + length b <= 1 /\ length pre + length a + length b <= st0) \/ exists a1 b1, a ++ b = a1 ++ b1 /\ st0 = length pre + length a1 /\ (ord -> sorted lt a1)) as [[Hs Hs']|(a1 & b1 & E & E0 & Ha1)].
  { unfold st0. destruct (Nat.eqb_spec (length pre + length a) (length pre)).
    - destruct a; [|simpl in *; lia]. destruct b as [|y b]; [left; simpl in *; lia|]. right. exists [y], b. cj; auto; simpl; try lia. intros. apply sorted_one.
    - right. exists a, b. auto. }
  { clearbody st0. apply wp_loop' with (I := fun s m => s = st0 /\ m = pre ++ map Val (a ++ b) ++ post) (mu := fun _ => 0); auto; try lia.
    intros s m [-> ->]. destruct (Nat.ltb_spec st0 (length pre + length a + length b)); [lia|]. apply wp_ret. apply HQ. split; [apply st_refl|].
    intros _. destruct (a ++ b) as [|x [|y l]] eqn:E; [apply sorted_nil|apply sorted_one|].
    apply (f_equal (@length A)) in E. rewrite app_length in E. simpl in E. lia. }
  assert (length a + length b = length a1 + length b1) as EL. { apply (f_equal (@length A)) in E. now rewrite !app_length in E. }
  clearbody st0. subst st0.
  apply wp_loop' with (I := fun s m => exists d r, m = pre ++ map Val (d ++ r) ++ post /\ s = length pre + length d /\ st (a ++ b) (d ++ r) /\ (ord -> sorted lt d))
    (mu := fun s => length pre + length a + length b - s).
  - exists a1, b1. rewrite E. cj; auto using st_refl.
  - lia.
  - intros s m (d & r & -> & -> & HP & Hd). pose proof (st_length _ _ _ _ HP) as HL. rewrite !app_length in HL.
    destruct (Nat.ltb_spec (length pre + length d) (length pre + length a + length b)) as [Hlt|Hlt].
    + destruct r as [|x r]; [simpl in HL; lia|]. asrt. apply wp_bind.
      reshape ((pre ++ map Val d) ++ Val x :: map Val r ++ post). apply wp_take_at. { lens. }
      reshape (pre ++ map Val d ++ Moved :: map Val r ++ post). apply wp_bind. apply upper_bound_wp; auto.
      intros u v [-> Hp]. apply wp_bind. reshape ((pre ++ map Val u) ++ map Val v ++ Moved :: map Val r ++ post). apply binary_shift_wp; [lens|lens|].
      intros c Hc. apply wp_bind, wp_put_at; [lens|auto|]. apply wp_ret. split; [|lens].
      assert (ord -> (forall z, In z u -> le z x) /\ (forall z, In z v -> lt x z = true)) as Hp'.
      { intros Ho. destruct (Hp (mono_ngt lt (HORD Ho) (u ++ v) x (Hd Ho))) as [H1 H2]. split; intros z Hz.
        - specialize (H1 z Hz). now apply negb_true_iff in H1.
        - specialize (H2 z Hz). now apply negb_false_iff in H2. }
      exists (u ++ x :: v), r. cj.
      * solve_app.
      * lens.
      * eapply st_trans; [exact HP|]. rewrite <- !app_assoc. simpl. apply (st_swap_mid lt ord HORD u v [x] r).
        intros Ho z y Hz [<-|[]]. now apply Hp'.
      * intros Ho. destruct (Hp' Ho) as [H1 H2]. specialize (Hd Ho). apply sorted_app in Hd as (D1 & D2 & D3). apply sorted_app. cj; auto.
        -- apply sorted_cons. split; auto. intros z Hz. red. apply (lt_asym lt (HORD Ho)). auto.
        -- intros z y Hz [<-|Hy]; auto.
    + destruct r; [|simpl in HL; lia]. rewrite app_nil_r in *. apply wp_ret. apply HQ. split; auto.
Qed.

Lemma adjacent_snoc : forall (lt' : A -> A -> bool) a y z, strict_weak_order lt' -> sorted lt' (a ++ [y]) -> lt' z y = false -> sorted lt' ((a ++ [y]) ++ [z]).
Proof.
  intros lt' a y z HW HS Hz. apply sorted_app. cj; auto using sorted_one. intros u v Hu [<-|[]]. apply in_app_or in Hu as [Hu|[<-|[]]]; auto.
  apply sorted_app in HS as (_ & _ & HS). apply (le_trans lt' HW) with y; auto. apply HS; simpl; auto.
Qed.

Lemma run_end_wp : forall desc x y a pre post lo hi s (Q : nat -> mem A -> Prop), lo = length pre -> hi = lo + S (S (length a)) -> s = S lo -> lt y x = desc ->
  (forall r q, x :: y :: a = r ++ q -> 2 <= length r -> (ord -> if desc then sorted (fun x y => negb (lt x y)) r else sorted lt r) ->
     Q (lo + length r) (pre ++ map Val (x :: y :: a) ++ post)) ->
  wp (run_end comp proj desc hi s) Q (pre ++ map Val (x :: y :: a) ++ post).
Proof.
  intros desc x y a pre post lo hi s Q -> -> -> Hd HQ. unfold run_end.
  apply wp_loop' with (I := fun s m => m = pre ++ map Val (x :: y :: a) ++ post /\ exists r z q, x :: y :: a = (r ++ [z]) ++ q /\ 1 <= length r /\ s = length pre + length r /\
     (ord -> if desc then sorted (fun x y => negb (lt x y)) (r ++ [z]) else sorted lt (r ++ [z])))
    (mu := fun s => length pre + S (S (length a)) - s).
  - split; auto. exists [x], y, a. cj; auto; simpl; try lia. intros Ho. destruct desc; apply (sorted_app _ [x] [y]); cj; auto using sorted_one;
      intros u v [<-|[]] [<-|[]]; unfold OrderLib.le; rewrite Hd; auto.
  - lia.
  - intros s m [-> (r & z & q & E & Hr & -> & HS)].
    assert (S (S (length a)) = length r + 1 + length q) as EL. { apply (f_equal (@length A)) in E. rewrite !app_length in E. simpl in E. lia. }
    destruct (Nat.ltb_spec (S (length pre + length r)) (length pre + S (S (length a)))) as [Hlt|Hlt].
    + destruct q as [|w q]; [simpl in EL; lia|]. rewrite E. apply wp_bind. eapply wp_less_at with (x := w) (y := z).
      { replace (pre ++ map Val ((r ++ [z]) ++ w :: q) ++ post) with ((pre ++ map Val r ++ [Val z]) ++ Val w :: map Val q ++ post) by solve_app. apply nth_at. lens. }
      { replace (pre ++ map Val ((r ++ [z]) ++ w :: q) ++ post) with ((pre ++ map Val r) ++ Val z :: map Val (w :: q) ++ post) by solve_app. apply nth_at. lens. }
      destruct (Bool.eqb (lt w z) desc) eqn:Eb.
      * apply wp_ret. split; [|lia]. split; auto. exists (r ++ [z]), w, q. cj; [solve_app|lens|lens|].
        intros Ho. specialize (HS Ho). apply Bool.eqb_prop in Eb. destruct desc.
        -- apply sorted_app. cj; auto using sorted_one. intros u v Hu [<-|[]]. unfold OrderLib.le. apply negb_false_iff.
           apply in_app_or in Hu as [Hu|[<-|[]]]; auto. apply sorted_app in HS as (_ & _ & HS). specialize (HS u z Hu (or_introl eq_refl)).
           unfold OrderLib.le in HS. apply negb_false_iff in HS. apply (swo_trans lt (HORD Ho)) with z; auto.
        -- apply adjacent_snoc; auto.
      * apply wp_ret. rewrite <- E. replace (S (length pre + length r)) with (length pre + length (r ++ [z])) by lens. apply HQ with (w :: q); auto. lens.
    + destruct q; [|simpl in EL; lia]. apply wp_ret. replace (S (length pre + length r)) with (length pre + length (r ++ [z])) by lens. apply HQ with []; auto. lens.
Qed.

Lemma count_run_wp : forall xs pre post lo hi (Q : nat -> mem A -> Prop), lo = length pre -> hi = lo + length xs -> xs <> [] ->
  (forall r q, st xs (r ++ q) -> r <> [] -> (ord -> sorted lt r) -> Q (length r) (pre ++ map Val (r ++ q) ++ post)) ->
  wp (count_run_and_make_ascending comp proj lo hi) Q (pre ++ map Val xs ++ post).
Proof.
  intros xs pre post lo hi Q -> -> Hne HQ. unfold count_run_and_make_ascending. destruct xs as [|x xs]; [congruence|]. asrt.
  destruct (Nat.eqb_spec (S (length pre)) (length pre + length (x :: xs))) as [E|E].
  { destruct xs; [|simpl in E; lia]. apply wp_ret. apply (HQ [x] []); [apply st_refl|discriminate|]. intros. apply sorted_one. }
  destruct xs as [|y a]; [simpl in E; lia|]. apply wp_bind. eapply wp_less_at with (x := y) (y := x).
  { replace (pre ++ map Val (x :: y :: a) ++ post) with ((pre ++ [Val x]) ++ Val y :: map Val a ++ post) by solve_app. apply nth_at. lens. }
  { replace (pre ++ map Val (x :: y :: a) ++ post) with (pre ++ Val x :: map Val (y :: a) ++ post) by solve_app. apply nth_at. lens. }
  destruct (lt y x) eqn:Eyx.
  - apply wp_bind. apply run_end_wp with (lo := length pre); auto. intros r q Er H2 HS. rewrite Er. apply wp_bind.
    eapply wp_mono. { reshape (pre ++ map Val r ++ map Val q ++ post). apply reverse_wp; auto. }
    intros u m ->. reshape (pre ++ map Val (rev r ++ q) ++ post). apply wp_ret.
    replace (length pre + length r - length pre) with (length (rev r)) by (rewrite rev_length; lia).
    apply HQ.
    + rewrite Er. apply st_app; [|apply st_refl]. apply st_rev; auto.
    + intros H. apply (f_equal (@length A)) in H. rewrite rev_length in H. simpl in H. lia.
    + intros Ho. specialize (HS Ho). intros i j u0 v Hij Hi Hj. apply (lt_asym lt (HORD Ho)).
      pose proof (sorted_rev _ _ HS i j u0 v Hij Hi Hj) as H. simpl in H. now apply negb_false_iff in H.
  - apply wp_bind. apply run_end_wp with (lo := length pre); auto. intros r q Er H2 HS. rewrite Er. apply wp_ret.
    replace (length pre + length r - length pre) with (length r) by lia. apply HQ; auto. { rewrite Er. apply st_refl. } { destruct r; [simpl in *; lia|discriminate]. }
Qed.
End Tim.
