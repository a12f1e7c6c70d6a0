(** metrics::moves: the run on the wrappers follows the run on the elements. *)
From Coq Require Import List Arith Lia.
From Verif Require Import Lang.Mem Model.MoveCount Spec.MoveCount.
Import ListNotations.

Lemma upd_map : forall X Y (f : X -> Y) l i x, map f (upd i x l) = upd i (f x) (map f l).
Proof. intros X Y f. induction l as [|y l IH]; intros [|i] x; simpl; auto. now rewrite IH. Qed.
Lemma map_repeat : forall X Y (f : X -> Y) x n, map f (repeat x n) = repeat (f x) n.
Proof. intros X Y f x. induction n as [|n IH]; simpl; auto. now rewrite IH. Qed.
Lemma incr_last : forall h n, incr (length h) (h ++ [n]) = Some (h ++ [S n]).
Proof.
  intros h n. unfold incr. rewrite nth_error_app2, Nat.sub_diag by lia. simpl. f_equal. induction h as [|x h IH]; simpl; auto. now rewrite IH.
Qed.

Section Follow.
Context {A K : Type} (proj : A -> K) (h : counters).
Notation c := (length h).
Definition embed (x : cell A) : option (wrapper A) :=
  match x with Raw => None | Moved => Some {| value := None; count := c |} | Val a => Some {| value := Some a; count := c |} end.
Lemma nth_embed : forall m i, nth_error (map embed m) i = option_map embed (nth_error m i).
Proof. intros. apply nth_error_map. Qed.
Lemma raw_embed : forall m, forallb (fun c => match c with None => true | _ => false end) (map embed m) = forallb (fun c => match c with Raw => true | _ => false end) m.
Proof. induction m as [|[| |] m IH]; simpl; auto. Qed.
Lemma nth_upd_ne : forall X (l : list X) i j x, i <> j -> nth_error (upd i x l) j = nth_error l j.
Proof. intros X. induction l as [|y l IH]; intros [|i] [|j] x H; simpl; auto; try lia. Qed.
Lemma nth_upd_eq : forall X (l : list X) i x y, nth_error l i = Some y -> nth_error (upd i x l) i = Some x.
Proof. intros X. induction l as [|z l IH]; intros [|i] x y H; simpl in *; try discriminate; eauto. Qed.

Theorem run_wrapped_follows : forall (p : prog K) (m : mem A) (n : nat),
  run_wrapped proj p (map embed m) (h ++ [n]) =
  match run proj p m with Ok _ m' => Some (map embed m', h ++ [n + moves proj p m]) | _ => None end.
Proof.
  induction p as [|l k IH|dst src k IH|dst src k IH|l k IH|q k IH|b q k IH]; intros m n; cbn [run_wrapped run moves].
  - unfold ret. now rewrite Nat.add_0_r.
  - unfold bind, get. rewrite nth_embed. destruct (nth_error m l) as [[| |a]|]; simpl; auto.
  - unfold bind, move_to, wrapper_assign. rewrite !nth_embed. destruct (Nat.eqb_spec src dst) as [->|N].
    { destruct (nth_error m dst) as [[| |a]|]; simpl; auto. }
    unfold bind, take, put. destruct (nth_error m src) as [[| |a]|] eqn:ES; simpl; auto. rewrite nth_upd_ne by auto.
    destruct (nth_error m dst) as [[| |b]|] eqn:ED; simpl; auto.
    + rewrite incr_last. change (Some {| value := Some a; count := c |}) with (embed (Val a)). change (Some {| value := None; count := c |}) with (embed Moved).
      rewrite <- !upd_map, IH. destruct (run proj k _); auto. now rewrite <- plus_n_Sm.
    + rewrite incr_last. change (Some {| value := Some a; count := c |}) with (embed (Val a)). change (Some {| value := None; count := c |}) with (embed Moved).
      rewrite <- !upd_map, IH. destruct (run proj k _); auto. now rewrite <- plus_n_Sm.
  - unfold bind, take, construct, wrapper_construct. rewrite !nth_embed. destruct (nth_error m src) as [[| |a]|] eqn:ES; simpl; auto.
    destruct (Nat.eq_dec src dst) as [->|N].
    { rewrite ES. rewrite (nth_upd_eq _ _ _ _ _ ES). simpl. auto. }
    rewrite nth_upd_ne by auto. destruct (nth_error m dst) as [[| |b]|] eqn:ED; simpl; auto.
    rewrite incr_last. change (Some {| value := Some a; count := c |}) with (embed (Val a)). change (Some {| value := None; count := c |}) with (embed Moved).
    rewrite <- !upd_map, IH. destruct (run proj k _); auto. now rewrite <- plus_n_Sm.
  - unfold bind, destroy. rewrite nth_embed. destruct (nth_error m l) as [[| |a]|]; simpl; auto; change (@None (wrapper A)) with (embed Raw); now rewrite <- upd_map, IH.
  - unfold bind, alloc. rewrite map_length. change (@None (wrapper A)) with (embed Raw). rewrite <- map_repeat, <- map_app. apply IH.
  - unfold bind, dealloc. rewrite map_length. destruct (Nat.eqb _ _); auto. rewrite skipn_map, raw_embed. destruct (forallb _ _); auto. rewrite firstn_map. apply IH.
Qed.

Lemma move_back_values : forall (l : list A) m, move_back (length l) (map embed (map Val l ++ m)) = Some l.
Proof. induction l as [|a l IH]; intros m; simpl; auto. now rewrite IH. Qed.
End Follow.

Section Count.
Context {A K : Type} (proj : A -> K).
Theorem count_moves_ok : forall (sorter : nat -> prog K) (range result : list A) (h : counters) (rest : mem A),
  length result = length range -> run proj (sorter (length range)) (map Val range) = Ok tt (map Val result ++ rest) ->
  let n := moves proj (sorter (length range)) (map Val range) in count_moves proj sorter range h = Some (result, h ++ [n], n).
Proof.
  intros sorter range result h rest HL E n. unfold count_moves.
  replace (map (fun a => Some {| value := Some a; count := length h |}) range) with (map (embed h) (map Val range)) by (rewrite map_map; reflexivity).
  rewrite run_wrapped_follows, E. rewrite <- HL at 1. rewrite move_back_values. rewrite nth_error_app2, Nat.sub_diag by lia. reflexivity.
Qed.
Theorem count_moves_ub : forall (sorter : nat -> prog K) (range : list A) (h : counters),
  run proj (sorter (length range)) (map Val range) = UB -> count_moves proj sorter range h = None.
Proof.
  intros sorter range h E. unfold count_moves.
  replace (map (fun a => Some {| value := Some a; count := length h |}) range) with (map (embed h) (map Val range)) by (rewrite map_map; reflexivity).
  now rewrite run_wrapped_follows, E.
Qed.
End Count.
