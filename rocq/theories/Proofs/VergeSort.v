(** Vergesort: the search for runs, and the sort. *)
From Coq Require Import List Arith Lia Permutation Bool.
From Verif Require Import Spec.Order Spec.Verge Lang.Mem Spec.Sorts Proofs.Wp Proofs.OrderLib Model.Basic Proofs.Basic Model.Rotate Proofs.Rotate
  Proofs.Search Proofs.BufMerge Proofs.Indirect Model.Buffer Model.Select Model.Pdq Proofs.Stable Model.Verge Proofs.Verge.
Import ListNotations.

Section Scan.
Context {A T : Type} (comp : T -> T -> bool) (proj : A -> T).
Notation lt := (by_proj comp proj).
Variables (ord : Prop) (stable desc : bool).
Hypothesis HORD : ord -> strict_weak_order lt.
Implicit Types (pre post : mem A).

(** Does the element [y] end the run that ends with [x]? *)
Definition out (x y : A) : bool := if desc then (if stable then negb (lt y x) else lt x y) else lt y x.

Definition chain (ys : list A) (i j : nat) : Prop :=
  ord -> forall k x y, i <= k -> S k < j -> nth_error ys k = Some x -> nth_error ys (S k) = Some y -> out x y = false.

Lemma out_of_run_wp : forall pre ys post i j x y (Q : bool -> mem A -> Prop), nth_error ys i = Some x -> nth_error ys j = Some y ->
  Q (out x y) (pre ++ map Val ys ++ post) ->
  wp (out_of_run comp proj stable desc (length pre + i) (length pre + j)) Q (pre ++ map Val ys ++ post).
Proof.
  intros pre ys post i j x y Q Hi Hj HQ. unfold out_of_run, out in *.
  assert (Mi : nth_error (pre ++ map Val ys ++ post) (length pre + i) = Some (Val x)).
  { rewrite nth_pre_map_post by (eapply nth_lt; eauto). now rewrite Hi. }
  assert (Mj : nth_error (pre ++ map Val ys ++ post) (length pre + j) = Some (Val y)).
  { rewrite nth_pre_map_post by (eapply nth_lt; eauto). now rewrite Hj. }
  destruct desc, stable; [apply wp_bind| | |]; eapply wp_less_at; eauto.
Qed.

Lemma scan_right_wp : forall pre ys post b c n rs (Q : nat * nat * nat -> mem A -> Prop),
  b <= c -> S c <= length ys -> n = length pre + S c -> chain ys b (S c) ->
  (forall c', c <= c' -> S c' <= length ys -> chain ys b (S c') ->
     (forall x y, nth_error ys c' = Some x -> nth_error ys (S c') = Some y -> out x y = true) ->
     Q (length pre + c', length pre + S c', rs + (c' - c)) (pre ++ map Val ys ++ post)) ->
  wp (scan_right comp proj stable desc (length pre + length ys) (length pre + c) n rs) Q (pre ++ map Val ys ++ post).
Proof.
  intros pre ys post b c n rs Q Hb Hc -> HC HQ. unfold scan_right.
  apply wp_loop' with (I := fun '(cu, ne, r) m => m = pre ++ map Val ys ++ post /\ exists c', cu = length pre + c' /\ ne = length pre + S c' /\ r = rs + (c' - c) /\
     c <= c' /\ S c' <= length ys /\ chain ys b (S c')) (mu := fun '(cu, ne, r) => length pre + length ys - ne).
  - split; auto. exists c. cj; auto; lia.
  - lia.
  - intros [[cu ne] r] m (-> & c' & -> & -> & -> & Hc1 & Hc2 & HC').
    destruct (Nat.eqb_spec (length pre + S c') (length pre + length ys)) as [E|E].
    { apply wp_ret. apply HQ; auto. intros x y _ Hy. apply nth_lt in Hy. lia. }
    destruct (nth_some _ ys c') as (x & Hx); [lia|]. destruct (nth_some _ ys (S c')) as (y & Hy); [lia|].
    apply wp_bind. eapply out_of_run_wp; eauto. destruct (out x y) eqn:Eo; apply wp_ret.
    + apply HQ; auto. intros x' y' Hx' Hy'. congruence.
    + split; [|lia]. split; auto. exists (S c'). cj; auto; try lia.
      intros Ho k x' y' Hk1 Hk2 Hx' Hy'. destruct (Nat.eq_dec k c') as [->|]; [congruence|]. apply (HC' Ho k); auto. lia.
Qed.

Lemma scan_left_wp : forall pre ys post b c n (Q : nat -> mem A -> Prop),
  b < c -> S c < length ys -> n = length pre + S c -> chain ys c (S (S c)) ->
  (forall c', b <= c' -> c' <= c -> chain ys c' (S (S c)) ->
     (forall k x y, b < c' -> c' = S k -> nth_error ys k = Some x -> nth_error ys c' = Some y -> out x y = true) ->
     Q (length pre + c') (pre ++ map Val ys ++ post)) ->
  wp (scan_left comp proj stable desc (length pre + b) (length pre + c) n) Q (pre ++ map Val ys ++ post).
Proof.
  intros pre ys post b c n Q Hb Hc -> HC HQ. unfold scan_left. apply wp_bind.
  apply wp_loop' with (I := fun '(cu, ne) m => m = pre ++ map Val ys ++ post /\ exists c', cu = length pre + c' /\ ne = length pre + S c' /\
     b < c' /\ c' <= c /\ chain ys c' (S (S c))) (mu := fun '(cu, ne) => cu - (length pre + b)).
  - split; auto. exists c. cj; auto; lia.
  - lia.
  - intros [cu ne] m (-> & c' & -> & -> & Hc1 & Hc2 & HC').
    destruct c' as [|c']; [lia|]. cbv zeta.
    replace (length pre + S c' - 1) with (length pre + c') by lia. replace (length pre + S (S c') - 1) with (length pre + S c') by lia.
    destruct (nth_some _ ys c') as (x & Hx); [lia|]. destruct (nth_some _ ys (S c')) as (y & Hy); [lia|].
    assert (HCC : out x y = false -> chain ys c' (S (S c))).
    { intros Eo Ho k x' y' Hk1 Hk2 Hx' Hy'. destruct (Nat.eq_dec k c') as [->|]; [congruence|]. apply (HC' Ho k); auto. lia. }
    apply wp_bind. eapply out_of_run_wp; eauto. destruct (out x y) eqn:Eo.
    + apply wp_ret. apply wp_bind. eapply out_of_run_wp; eauto. rewrite Eo. apply wp_ret. rewrite plus_n_Sm. apply HQ; auto; try lia.
      intros k x' y' _ Ek Hx' Hy'. injection Ek as <-. congruence.
    + destruct (Nat.eqb_spec (length pre + c') (length pre + b)) as [E|E]; simpl negb; cbv iota; apply wp_ret.
      * apply wp_bind. eapply out_of_run_wp; eauto. rewrite Eo. apply wp_ret. apply HQ; auto; try lia.
      * split; [|lia]. split; auto. exists c'. cj; auto; lia.
Qed.

(** The run as a list. *)
Definition adj (r : list A) : Prop := ord -> forall i x y, nth_error r i = Some x -> nth_error r (S i) = Some y -> out x y = false.
Lemma chain_slice : forall ys i j, i <= j -> j <= length ys -> chain ys i j ->
  exists u r v, ys = u ++ r ++ v /\ length u = i /\ length r = j - i /\ adj r.
Proof.
  intros ys i j Hij Hj HC. exists (firstn i ys), (firstn (j - i) (skipn i ys)), (skipn (j - i) (skipn i ys)).
  rewrite !firstn_skipn. rewrite firstn_length_le by lia. rewrite firstn_length_le by (rewrite skipn_length; lia). cj; auto.
  intros Ho k x y Hx Hy. assert (S k < j - i). { apply nth_lt in Hy. rewrite firstn_length in Hy. lia. }
  rewrite nth_firstn_lt in Hx, Hy by lia. rewrite nth_skipn in Hx, Hy. apply (HC Ho (i + k)); auto; try lia. now replace (S (i + k)) with (i + S k) by lia.
Qed.

Lemma adj_pairs : ord -> forall r, adj r -> forall i j x y, i < j -> nth_error r i = Some x -> nth_error r j = Some y -> out x y = false.
Proof.
  intros Ho r HA i j x y Hij Hx. pose proof (HORD Ho) as HW. specialize (HA Ho). revert y. induction Hij as [|j Hij IH]; intros y Hy. { eapply HA; eauto. }
  destruct (nth_some _ r j) as (z & Hz). { apply nth_lt in Hy. lia. }
  specialize (IH _ Hz). specialize (HA _ _ _ Hz Hy). unfold out in *. destruct desc; [destruct stable|].
  - apply negb_false_iff in IH, HA. apply negb_false_iff. eapply swo_trans; eauto.
  - apply (le_trans lt HW y z x HA IH).
  - apply (le_trans lt HW x z y IH HA).
Qed.

(** The run once in ascending order. *)
Definition ready (r : list A) : list A := if desc then rev r else r.
Lemma ready_sorted : ord -> forall r, adj r -> sorted lt (ready r).
Proof.
  intros Ho r HA. pose proof (HORD Ho) as HW. pose proof (adj_pairs Ho r HA) as HP. unfold ready, out in *. destruct desc; [|exact HP].
  intros i j x y Hij Hi Hj. pose proof (nth_lt _ _ _ Hi) as Li. pose proof (nth_lt _ _ _ Hj) as Lj. rewrite rev_length in Li, Lj.
  rewrite nth_rev in Hi, Hj by auto. specialize (HP (length r - S j) (length r - S i) y x ltac:(lia) Hj Hi).
  destruct stable; auto. apply negb_false_iff in HP. apply (lt_asym lt HW); auto.
Qed.
(** A descending run has two elements in the wrong order. *)
Definition falls (r : list A) : Prop := desc = true -> exists i x y, nth_error r i = Some x /\ nth_error r (S i) = Some y /\ lt y x = true.
Lemma ready_monotone : ord -> forall r, adj r -> falls r -> if desc then sorted (fun x y => lt y x) r /\ ~ sorted lt r else sorted lt r.
Proof.
  intros Ho r HA HF. pose proof (HORD Ho) as HW. pose proof (adj_pairs Ho r HA) as HP. unfold out, falls in *. destruct desc; [|exact HP]. split.
  - intros i j x y Hij Hi Hj. specialize (HP _ _ _ _ Hij Hi Hj). destruct stable; auto. apply negb_false_iff in HP. apply (lt_asym lt HW); auto.
  - intros HS. destruct (HF eq_refl) as (i & x & y & Hx & Hy & E). rewrite (HS i (S i) x y) in E; auto. discriminate.
Qed.
Lemma out_lt : ord -> forall x y, out x y = true -> lt y x = negb desc.
Proof.
  intros Ho x y E. unfold out in E. destruct desc; auto. simpl. destruct stable; [now apply negb_true_iff in E|]. apply (lt_asym lt (HORD Ho)). auto.
Qed.
Lemma ready_ends : ord -> forall r z x, adj (r ++ [z]) -> falls (r ++ [z]) -> lt x z = negb desc -> ends_before lt (r ++ [z]) x.
Proof.
  intros Ho r z x HA HF E. exists r, z. split; auto. pose proof (ready_monotone Ho _ HA HF) as HM. destruct desc; [right|left]; tauto.
Qed.
Lemma ready_starts : ord -> forall x y r, adj (y :: r) -> falls (y :: r) -> lt y x = negb desc -> starts_after lt x (y :: r).
Proof.
  intros Ho x y r HA HF E. exists y, r. split; auto. pose proof (ready_monotone Ho _ HA HF) as HM. destruct desc; [right|left]; tauto.
Qed.
Lemma ready_st : forall r, adj r -> st lt (ost ord stable) r (ready r).
Proof.
  intros r HA. unfold ready. pose proof (fun H => adj_pairs H r HA) as HPs. unfold out in HPs. destruct desc; [|apply st_refl].
  apply st_rev. { intros [H _]. auto. } intros [H E]. rewrite E in HPs. intros i j x y Hij Hi Hj. apply (HPs H i j); auto.
Qed.
Lemma ready_length : forall r, length (ready r) = length r.
Proof. intros r. unfold ready. destruct desc; auto using rev_length. Qed.
End Scan.

(** * The list of runs during the search *)
Section Search.
Context {A T : Type} (comp : T -> T -> bool) (proj : A -> T).
Notation lt := (by_proj comp proj).
Variables (stable : bool) (limit : nat) (xs : list A).
Variable ord : Prop.
Hypothesis HORD : ord -> strict_weak_order lt.
Hypothesis HISO : ord -> ~ has_isolated_element lt limit xs.
Hypothesis HLIM : 2 <= limit.
Notation ost := (ost ord stable).
Notation st := (st lt ost).
Notation sorting := (sorting comp proj ord stable).
Notation srt := (srt comp proj ord).

(** [old] was the part of the collection that is now [segs]. *)
Definition found (segs : list (list A)) (old : list A) : Prop :=
  st old (concat segs) /\ ne segs /\ srt segs /\ (ord -> forall s, In s (tl segs) -> length s <> 1) /\
  (segs = [] \/ exists a b, old = a ++ b /\ limit <= length b /\ (ord -> forall x v, xs = old ++ x :: v -> ends_before lt b x)).

Lemma srt_app : forall a b, srt a -> srt b -> srt (a ++ b).
Proof. intros a b Ha Hb Ho. apply Forall_app. auto. Qed.
Lemma tl_app : forall (a b : list (list A)) s, In s (tl (a ++ b)) -> In s (tl a) \/ In s b.
Proof. intros [|x a] b s H; simpl in *. { right. destruct b; [destruct H|now right]. } apply in_app_or in H. auto. Qed.

Lemma found_nil : found [] [].
Proof. unfold found. simpl. cj; auto using st_refl; [constructor|intros _; constructor]. Qed.

Section Run.
Variables (desc : bool) (r : list A).
Hypothesis (HA : adj comp proj ord stable desc r) (HL : limit <= length r) (HFL : falls comp proj desc r).
Variable pos : nat.
Hypothesis HNX : ord -> forall p z x v, length p = pos -> xs = p ++ r ++ x :: v -> (exists r', r = r' ++ [z]) -> lt x z = negb desc.
Lemma ready_ne : ready desc r <> [].
Proof. intros E. apply (f_equal (@length A)) in E. rewrite ready_length in E. simpl in E. lia. Qed.
Lemma ready_big : length (ready desc r) <> 1.
Proof. rewrite ready_length. lia. Qed.

Lemma ends_run : ord -> forall p x v, length p = pos -> xs = p ++ r ++ x :: v -> ends_before lt r x.
Proof.
  intros Ho p x v Hp E. destruct (exists_last (l := r)) as (r' & z & Er). { intros ->. simpl in HL. lia. }
  pose proof (HNX Ho p z x v Hp E (ex_intro _ r' Er)) as HZ. rewrite Er in *. eapply ready_ends; eauto.
Qed.

Lemma found_run : forall segs old, length old = pos -> found segs old -> found (segs ++ [ready desc r]) (old ++ r).
Proof.
  intros segs old Hpos (HS & HN & HO & H1 & HP). unfold found. cj.
  - rewrite concat_app. simpl. rewrite app_nil_r. apply st_app; auto. now apply ready_st.
  - apply Forall_app. split; auto. constructor; [apply ready_ne|constructor].
  - apply srt_app; auto. intros Ho. constructor; [|constructor]. eapply ready_sorted; eauto.
  - intros Ho s Hs. apply tl_app in Hs as [Hs|[<-|[]]]; auto using ready_big.
  - right. exists old, r. cj; auto. intros Ho x v E. apply (ends_run Ho old x v); auto. now rewrite <- app_assoc in E.
Qed.

Lemma found_both : forall segs old u w v, length (old ++ u) = pos -> found segs old -> xs = old ++ u ++ r ++ v -> u <> [] -> sorting u w ->
  (ord -> forall x y r', u = [x] -> r = y :: r' -> lt y x = negb desc) ->
  found (segs ++ [w; ready desc r]) (old ++ u ++ r).
Proof.
  intros segs old u w v Hpos (HS & HN & HO & H1 & HP) EX Hu [HU1 HU2] HPV. unfold found. pose proof (st_length _ _ _ _ HU1) as HLU. cj.
  - rewrite concat_app. simpl. rewrite app_nil_r. repeat apply st_app; auto. now apply ready_st.
  - apply Forall_app. split; auto. constructor. { intros ->. destruct u; [congruence|discriminate]. } constructor; [apply ready_ne|constructor].
  - apply srt_app; auto. intros Ho. constructor; auto. constructor; [|constructor]. eapply ready_sorted; eauto.
  - intros Ho s Hs. destruct segs as [|s0 segs]. { simpl in Hs. destruct Hs as [<-|[]]. apply ready_big. }
    apply tl_app in Hs as [Hs|[<-|[<-|[]]]]; auto using ready_big. destruct HP as [?|(a & b & -> & Hb & Hm)]; [discriminate|].
    intros Hw. rewrite Hw in HLU. destruct u as [|x [|]]; try discriminate. apply (HISO Ho). exists a, b, x, r, v. cj; auto.
    + rewrite EX, <- app_assoc. auto.
    + apply (Hm Ho x (r ++ v)). rewrite EX. auto.
    + destruct r as [|y r'] eqn:Er; [simpl in HL; lia|]. apply ready_starts with (ord := ord) (stable := stable) (desc := desc); auto. eapply HPV; eauto.
  - right. exists (old ++ u), r. cj; auto. { now rewrite app_assoc. }
    intros Ho x t E. apply (ends_run Ho (old ++ u) x t); auto. rewrite E. now rewrite <- !app_assoc.
Qed.
End Run.

Lemma found_last : forall segs old u w, found segs old -> u <> [] -> sorting u w ->
  st (old ++ u) (concat (segs ++ [w])) /\ ne (segs ++ [w]) /\ srt (segs ++ [w]) /\ (ord -> no_lone (tl (segs ++ [w]))).
Proof.
  intros segs old u w (HS & HN & HO & H1 & HP) Hu [HU1 HU2]. pose proof (st_length _ _ _ _ HU1) as HLU. cj.
  - rewrite concat_app. simpl. rewrite app_nil_r. now apply st_app.
  - apply Forall_app. split; auto. constructor; [|constructor]. intros ->. destruct u; [congruence|discriminate].
  - apply srt_app; auto. intros Ho. constructor; auto.
  - intros Ho s Hs. destruct segs as [|s0 segs]. { destruct Hs. } simpl in Hs. rewrite removelast_last in Hs. apply (H1 Ho). auto.
Qed.
Lemma found_end : forall segs old, found segs old -> ne segs /\ srt segs /\ (ord -> no_lone (tl segs)).
Proof.
  intros segs old (HS & HN & HO & H1 & HP). cj; auto. intros Ho s Hs. apply (H1 Ho). destruct (tl segs) as [|t l] eqn:E using rev_ind. { destruct Hs. }
  rewrite removelast_last in Hs. apply in_or_app. auto.
Qed.

Variables (cat : category) (triv : bool) (o : oracle) (fallback : range_prog A).
Hypothesis HC : cat <> Forward.
Hypothesis HF : runs sorting fallback.
Implicit Types pre post : mem A.

Lemma fallback_wp : forall pre u post f l (Q : unit -> mem A -> Prop), f = length pre -> l = f + length u ->
  (forall w, sorting u w -> Q tt (pre ++ map Val w ++ post)) -> wp (fallback f l) Q (pre ++ map Val u ++ post).
Proof. intros pre u post f l Q -> -> HQ. destruct (HF pre u post) as (w & E & HS). eapply wp_run; eauto. Qed.

Lemma ready_wp : forall desc pre r post f l (Q : unit -> mem A -> Prop), f = length pre -> l = f + length r ->
  Q tt (pre ++ map Val (ready desc r) ++ post) -> wp (if desc then reverse cat f l else ret tt) Q (pre ++ map Val r ++ post).
Proof.
  intros [|] pre r post f l Q -> -> HQ; simpl in HQ; [|now apply wp_ret]. eapply wp_mono; [apply reverse_wp; auto|]. intros [] m ->. exact HQ.
Qed.

(** The runs found so far, and the beginning of what has not been sorted yet if it is not the current position. *)
Definition searching (g : nat) pre post (bu cu : nat) (rs : list run) (m : mem A) : Prop :=
  exists segs old rest, found segs old /\ xs = old ++ rest /\ runs_at (length pre) segs rs /\
    m = pre ++ map Val (concat segs ++ rest) ++ post /\
    (bu = length pre + length xs /\ cu = length pre + length old \/ bu = length pre + length old /\ bu + S g <= cu) /\ cu < length pre + length xs.

(** On leaving the loop. *)
Definition searched pre post (bu : nat) (rs : list run) (m : mem A) : Prop :=
  exists segs old rest, found segs old /\ xs = old ++ rest /\ runs_at (length pre) segs rs /\
    m = pre ++ map Val (concat segs ++ rest) ++ post /\ bu = length pre + length old.

Lemma finish_wp : forall pre post bu rs m, xs <> [] -> searched pre post bu rs m ->
  wp (let* rs := if negb (bu =? length pre + length xs) then
        fallback bu (length pre + length xs) ;;
        ret (rs ++ [(length pre + length xs, length pre + length xs - bu)])
      else ret rs in
      merge_runs comp proj cat triv o (length pre) rs) (fun _ m => exists ys, m = pre ++ map Val ys ++ post /\ sorting xs ys) m.
Proof.
  intros pre post bu rs m HX (segs & old & rest & HJ & EX & HR & -> & ->).
  assert (HLN : length old = length (concat segs)). { destruct HJ as (HS & _). now apply st_length in HS. }
  assert (LX : length xs = length old + length rest) by (rewrite EX, app_length; auto).
  apply wp_bind. destruct (Nat.eqb_spec (length pre + length old) (length pre + length xs)) as [E|E]; simpl negb; cbv iota.
  - apply wp_ret. destruct rest; [|simpl in LX; lia]. rewrite !app_nil_r in *. subst old. destruct (found_end _ _ HJ) as (H1 & H2 & H3).
    eapply wp_mono; [apply merge_runs_wp with (stable := stable); eauto|].
    { intros ->. simpl in HLN. destruct xs; [congruence|discriminate]. }
    intros [] m (ys & -> & HS1 & HS2). exists ys. split; auto. split; auto. eapply st_trans; [apply HJ|]. auto.
  - assert (HRN : rest <> []). { intros ->. simpl in LX. lia. }
    apply wp_bind. reshape ((pre ++ map Val (concat segs)) ++ map Val rest ++ post). apply fallback_wp; [lens|lens|]. intros w Hw. apply wp_ret.
    destruct (found_last _ _ _ _ HJ HRN Hw) as (H0 & H1 & H2 & H3). assert (HLW : length rest = length w). { destruct Hw as [Hw _]. now apply st_length in Hw. }
    reshape (pre ++ map Val (concat (segs ++ [w])) ++ post). { rewrite concat_app. simpl. solve_app. }
    eapply wp_mono; [apply merge_runs_wp with (stable := stable); eauto|].
    { apply runs_at_app; auto. simpl. cj; auto; lia. }
    { destruct segs; discriminate. }
    intros [] m (ys & -> & HS1 & HS2). exists ys. split; auto. split; auto. rewrite EX. eapply st_trans; eauto.
Qed.

Lemma app_split_ge : forall (a b c d : list A), a ++ b = c ++ d -> length a <= length c -> exists u, c = a ++ u /\ b = u ++ d.
Proof.
  induction a as [|x a IH]; intros b c d E H; simpl in *. { exists c. auto. }
  destruct c as [|y c]; [simpl in H; lia|]. injection E as -> E. destruct (IH _ _ _ E) as (u & -> & ->). { simpl in H. lia. } exists u. auto.
Qed.

(** The element after the run found, and the one before it. *)
Lemma slice_nth : forall (u r v : list A) k, length u <= k -> k < length u + length r -> nth_error r (k - length u) = nth_error (u ++ r ++ v) k.
Proof. intros u r v k H1 H2. rewrite nth_error_app2 by auto. rewrite nth_error_app1 by lia. auto. Qed.

Lemma run_next : forall desc (u0 r v p0 : list A) c2, ord -> xs = p0 ++ r ++ v -> length p0 = length u0 -> length r = S c2 - length u0 -> length u0 <= c2 ->
  (forall x y, nth_error (u0 ++ r ++ v) c2 = Some x -> nth_error (u0 ++ r ++ v) (S c2) = Some y -> out comp proj stable desc x y = true) ->
  forall p z x t, length p = length u0 -> xs = p ++ r ++ x :: t -> (exists r', r = r' ++ [z]) -> lt x z = negb desc.
Proof.
  intros desc u0 r v p0 c2 Ho EX Hp0 Hr Hc HOut p z x t Hp E (r' & ->). apply (out_lt comp proj ord stable desc HORD Ho).
  assert (v = x :: t) as ->. { rewrite EX in E. apply app_eq_split in E as [_ E]; [|congruence]. now apply app_inv_head in E. }
  rewrite app_length in Hr. simpl length in Hr. apply HOut.
  - rewrite app_assoc, nth_error_app1, nth_error_app2, nth_error_app2 by lens. now replace (c2 - length u0 - length r') with 0 by lia.
  - rewrite app_assoc, nth_error_app2 by (rewrite !app_length; simpl length; lia). rewrite !app_length. simpl length. now replace (S c2 - (length u0 + (length r' + 1))) with 0 by lia.
Qed.

Lemma verge_step_wp : forall pre post bu cu rs m, searching 1 pre post bu cu rs m ->
  wp (verge_step comp proj cat stable fallback (length pre + length xs) limit (bu, cu, S cu, rs))
    (fun r m' => match r with
     | inl (bu', cu', n', rs') => n' = S cu' /\ searching 1 pre post bu' cu' rs' m' /\ cu < cu'
     | inr (bu', rs') => searched pre post bu' rs' m'
     end) m.
Proof.
  intros pre post bu cu rs m (segs & old & rest & HJ & EX & HR & -> & Hbu & Hcu). unfold verge_step.
  assert (HLN : length old = length (concat segs)). { destruct HJ as (HS & _). now apply st_length in HS. }
  assert (LX : length xs = length old + length rest) by (rewrite EX, app_length; auto).
  set (last := length pre + length xs) in *.
  assert (HBU : (bu =? last) = false -> bu = length pre + length old /\ bu + 2 <= cu). { intros E. apply Nat.eqb_neq in E. lia. }
  assert (HBT : (bu =? last) = true -> cu = length pre + length old). { intros E. apply Nat.eqb_eq in E. lia. }
  destruct (Nat.leb_spec (last - S cu) limit) as [H1|H1].
  { apply wp_ret. exists segs, old, rest. cj; auto. destruct (bu =? last); [now apply HBT|now apply HBU]. }
  set (ys := concat segs ++ rest) in *. assert (LY : length ys = length xs) by (unfold ys; rewrite app_length; lia).
  assert (exists b, cu = length pre + b /\ length old <= b) as (b & -> & Hb). { exists (cu - length pre). lia. }
  destruct (nth_some _ ys (b + limit)) as (x & Hx); [lia|]. destruct (nth_some _ ys (S (b + limit))) as (y & Hy); [lia|].
  replace (length pre + b + limit) with (length pre + (b + limit)) by lia. replace (S (length pre + b) + limit) with (length pre + S (b + limit)) by lia.
  apply wp_bind. eapply wp_less_at with (x := y) (y := x).
  { rewrite nth_pre_map_post by lia. now rewrite Hy. } { rewrite nth_pre_map_post by lia. now rewrite Hx. }
  change (comp (proj y) (proj x)) with (lt y x). remember (lt y x) as desc eqn:Ed.
  assert (HCH : chain comp proj ord stable desc ys (b + limit) (S (S (b + limit)))).
  { intros Ho k x' y' Hk1 Hk2 Hx' Hy'. assert (k = b + limit) as -> by lia. assert (x' = x) as -> by congruence. assert (y' = y) as -> by congruence.
    unfold out. destruct desc; auto. destruct stable; [now rewrite <- Ed|]. apply (lt_asym lt (HORD Ho)). auto. }
  apply wp_bind. apply scan_left_wp with (ord := ord); auto; try lia. intros c1 Hc1 Hc2 HC1 HIn.
  apply wp_bind. replace (S (length pre + (b + limit))) with (length pre + S (b + limit)) by lia. unfold last at 1. rewrite <- LY.
  apply scan_right_wp with (ord := ord) (b := c1); auto; try lia.
  intros c2 Hc3 Hc4 HC2 HOut. rewrite plus_n_Sm. cbv zeta.
  destruct (chain_slice comp proj ord stable desc HORD ys c1 (S c2)) as (u0 & r & v & EY & Hu0 & Hr & HAdj); auto; [lia|].
  destruct (app_split_ge (concat segs) rest u0 (r ++ v)) as (u & -> & ER). { unfold ys in EY. exact EY. } { lia. }
  assert (HFL : falls comp proj desc r).
  { intros Et. exists (b + limit - c1), x, y. rewrite <- Hu0. replace (S (b + limit - length (concat segs ++ u))) with (S (b + limit) - length (concat segs ++ u)) by lia.
    rewrite !(slice_nth _ _ v) by lia. rewrite <- EY. cj; auto. congruence. }
  assert (HNX : ord -> forall p z x v, length p = c1 -> xs = p ++ r ++ x :: v -> (exists r', r = r' ++ [z]) -> lt x z = negb desc).
  { intros Ho. rewrite <- Hu0. apply run_next with (v := v) (p0 := old ++ u) (c2 := c2); auto; try lia.
    - rewrite EX, ER. solve_app. - rewrite !app_length. lia. - rewrite <- EY. auto. }
  assert (HPV : ord -> forall x y r', u = [x] -> r = y :: r' -> lt y x = negb desc).
  { intros Ho x' y' r' -> ->. rewrite app_length in Hu0. simpl in Hu0. apply (out_lt comp proj ord stable desc HORD Ho). apply (HIn (length (concat segs))); auto; try lia.
    - rewrite EY, <- app_assoc, nth_error_app2, Nat.sub_diag by lia. auto.
    - rewrite EY, nth_error_app2 by (rewrite app_length; simpl; lia). rewrite app_length. simpl length. now replace (c1 - (length (concat segs) + 1)) with 0 by lia. }
  rewrite app_length in Hu0.
  apply wp_bind. destruct (Nat.leb_spec limit (length pre + S c2 - (length pre + c1))) as [H2|H2].
  - apply wp_bind. reshape ((pre ++ map Val (concat segs ++ u)) ++ map Val r ++ map Val v ++ post).
    { rewrite EY. solve_app. }
    apply ready_wp; [lens|lens|].
    assert (HRL : length (ready desc r) = length r) by apply ready_length.
    assert (HFin : forall segs' old' bu' rs' m', found segs' old' -> old' = old ++ u ++ r -> runs_at (length pre) segs' rs' -> bu' = last ->
       m' = pre ++ map Val (concat segs' ++ v) ++ post ->
       wp (if length pre + S c2 =? last then ret (inr (bu', rs')) else ret (inl (bu', length pre + S c2, S (length pre + S c2), rs')))
         (fun r m' => match r with
          | inl (bu', cu', n', rs') => n' = S cu' /\ searching 1 pre post bu' cu' rs' m' /\ length pre + b < cu'
          | inr (bu', rs') => searched pre post bu' rs' m'
          end) m').
    { intros segs' old' bu' rs' m' HJ' -> HR' -> ->. cbv beta iota.
      assert (EX' : xs = (old ++ u ++ r) ++ v) by (rewrite EX, ER; solve_app).
      assert (HLO : length (old ++ u ++ r) = S c2) by (rewrite !app_length; lia).
      destruct (Nat.eqb_spec (length pre + S c2) last) as [E|E]; apply wp_ret.
      - exists segs', (old ++ u ++ r), v. cj; auto. rewrite HLO. lia.
      - cj; [lia| |lia]. exists segs', (old ++ u ++ r), v. cj; auto; lia. }
    destruct (Nat.eqb_spec (length pre + c1 - (length pre + b)) 0) as [E1|E1]; simpl negb; simpl andb.
    + destruct (Nat.eqb_spec bu last) as [E2|E2]; simpl negb; cbv iota.
      * (* the run begins where the previous one ends *)
        apply wp_ret. assert (u = []) as ->. { destruct u; auto. simpl in Hu0. lia. }
        eapply HFin; [eapply (found_run desc r) with (pos := c1); eauto|reflexivity| |auto|]; try lia.
        -- apply runs_at_app; auto. simpl. rewrite HRL. cj; auto; simpl in Hu0; lia.
        -- rewrite concat_app. simpl. solve_app.
      * assert (u <> []) as Hune. { intros ->. simpl in Hu0. lia. }
        apply wp_bind. reshape ((pre ++ map Val (concat segs)) ++ map Val u ++ map Val (ready desc r) ++ map Val v ++ post).
        apply fallback_wp; [lens|lens|]. intros w Hw. apply wp_ret.
        assert (HLW : length u = length w). { destruct Hw as [Hw _]. now apply st_length in Hw. }
        eapply HFin; [eapply (found_both desc r) with (pos := c1) (v := v); eauto|reflexivity| |auto|]; try lia; [rewrite app_length; lia|rewrite EX, ER; auto| |].
        -- apply runs_at_app; auto. simpl. rewrite HRL. cj; auto; simpl in Hu0; lia.
        -- rewrite concat_app. simpl. solve_app.
    + assert (Hune : u <> []). { intros ->. simpl in Hu0. lia. }
      assert (HB2 : (if bu =? last then length pre + b else bu) = length pre + length old). { destruct (bu =? last); [now apply HBT|now apply HBU]. }
      rewrite HB2. assert (length pre + length old =? last = false) as ->. { apply Nat.eqb_neq. lia. } simpl negb. cbv iota.
      apply wp_bind. reshape ((pre ++ map Val (concat segs)) ++ map Val u ++ map Val (ready desc r) ++ map Val v ++ post).
      apply fallback_wp; [lens|lens|]. intros w Hw. apply wp_ret.
      assert (HLW : length u = length w). { destruct Hw as [Hw _]. now apply st_length in Hw. }
      eapply HFin; [eapply (found_both desc r) with (pos := c1) (v := v); eauto|reflexivity| |auto|]; try lia; [rewrite app_length; lia|rewrite EX, ER; auto| |].
      * apply runs_at_app; auto. simpl. rewrite HRL. cj; auto; simpl in Hu0; lia.
      * rewrite concat_app. simpl. solve_app.
  - apply wp_ret. assert (HB2 : (if bu =? last then length pre + b else bu) = length pre + length old). { destruct (bu =? last); [now apply HBT|now apply HBU]. }
    rewrite HB2. destruct (Nat.eqb_spec (length pre + S c2) last) as [E|E]; apply wp_ret.
    + exists segs, old, rest. cj; auto.
    + cj; [lia| |lia]. exists segs, old, rest. cj; auto; lia.
Qed.

Lemma verge_random_access_wp : forall pre post, limit = length xs / log2 (length xs) ->
  wp (verge_sort_random_access comp proj cat triv o stable fallback (length pre) (length pre + length xs) (length xs))
    (fun _ m => exists ys, m = pre ++ map Val ys ++ post /\ sorting xs ys) (pre ++ map Val xs ++ post).
Proof.
  intros pre post Elim. unfold verge_sort_random_access. destruct (Nat.ltb_spec (length xs) 128) as [H|H].
  { apply fallback_wp; auto. intros w Hw. eauto. }
  rewrite <- Elim. apply wp_bind.
  apply wp_loop' with (I := fun '(bu, cu, n, rs) m => n = S cu /\ searching 1 pre post bu cu rs m) (mu := fun '(bu, cu, n, rs) => length pre + length xs - cu).
  - split; auto. exists [], [], xs. simpl. cj; auto using found_nil; lia.
  - lia.
  - intros [[[bu cu] n] rs] m [-> HS]. assert (cu < length pre + length xs) as Hcu. { destruct HS as (? & ? & ? & HS). tauto. }
    eapply wp_mono; [apply verge_step_wp; eauto|]. intros [[[[bu' cu'] n'] rs']|[bu' rs']] m' HR.
    + destruct HR as (-> & HS' & Hlt). cj; auto. lia.
    + cbv beta iota. apply finish_wp; auto. intros E. rewrite E in H. simpl in H. lia.
Qed.

(** ** Bidirectional iterators *)
Definition searching_bidi pre post (desc : bool) (bu su cu : nat) (rs : list run) (m : mem A) : Prop :=
  searching 0 pre post bu cu rs m /\ S cu < length pre + length xs /\ (bu = length pre + length xs /\ su = 0 \/ bu + su = cu) /\
  (bu + 1 = cu -> exists x y, nth_error m bu = Some (Val x) /\ nth_error m cu = Some (Val y) /\ lt y x = negb desc) /\
  (exists x y, nth_error m cu = Some (Val x) /\ nth_error m (S cu) = Some (Val y) /\ lt y x = desc).

Definition searched_bidi pre post (bu su : nat) (rs : list run) (m : mem A) : Prop :=
  searched pre post bu rs m /\ (bu = length pre + length xs \/ S (bu + su) = length pre + length xs).

Lemma verge_step_bidi_wp : forall pre post desc bu su cu rs m, ord -> searching_bidi pre post desc bu su cu rs m ->
  wp (verge_step_bidi comp proj cat stable fallback (length pre + length xs) limit (desc, bu, su, cu, S cu, rs))
    (fun r m' => match r with
     | inl (desc', bu', su', cu', n', rs') => n' = S cu' /\ searching_bidi pre post desc' bu' su' cu' rs' m' /\ cu < cu'
     | inr (bu', su', rs') => searched_bidi pre post bu' su' rs' m'
     end) m.
Proof.
  intros pre post desc bu su cu rs m Ho ((segs & old & rest & HJ & EX & HR & -> & Hbu & Hcu) & Hcu2 & Hsu & HPrev & x & y & Hx & Hy & Hd). unfold verge_step_bidi.
  assert (HLN : length old = length (concat segs)). { destruct HJ as (HS & _). now apply st_length in HS. }
  assert (LX : length xs = length old + length rest) by (rewrite EX, app_length; auto).
  set (last := length pre + length xs) in *.
  assert (HBU : (bu =? last) = false -> bu = length pre + length old /\ bu < cu /\ bu + su = cu). { intros E. apply Nat.eqb_neq in E. lia. }
  assert (HBT : (bu =? last) = true -> cu = length pre + length old /\ su = 0). { intros E. apply Nat.eqb_eq in E. lia. }
  set (ys := concat segs ++ rest) in *. assert (LY : length ys = length xs) by (unfold ys; rewrite app_length; lia).
  assert (exists b, cu = length pre + b /\ length old <= b) as (b & -> & Hb). { exists (cu - length pre). lia. }
  apply wp_bind. eapply wp_less_at; eauto. change (comp (proj y) (proj x)) with (lt y x). rewrite Hd.
  apply wp_bind. rewrite eqb_reflx. apply wp_ret. cbv zeta.
  rewrite plus_n_Sm in Hy |- *. rewrite nth_pre_map_post in Hx by lia. rewrite nth_pre_map_post in Hy by lia.
  assert (HCH : chain comp proj ord stable desc ys b (S (S b))).
  { intros _ k x' y' Hk1 Hk2 Hx' Hy'. assert (k = b) as -> by lia. rewrite Hx' in Hx. rewrite Hy' in Hy. injection Hx as ->. injection Hy as ->.
    unfold out. destruct desc; auto. destruct stable; [now rewrite Hd|]. apply (lt_asym lt (HORD Ho)). auto. }
  apply wp_bind. unfold last at 1. rewrite <- LY. apply scan_right_wp with (ord := ord) (b := b); auto; try lia.
  intros c2 Hc3 Hc4 HC2 HOut.
  destruct (chain_slice comp proj ord stable desc HORD ys b (S c2)) as (u0 & r & v & EY & Hu0 & Hr & HAdj); auto; [lia|].
  destruct (app_split_ge (concat segs) rest u0 (r ++ v)) as (u & -> & ER). { unfold ys in EY. exact EY. } { lia. }
  assert (HFL : falls comp proj desc r).
  { intros Et. exists (b - length (concat segs ++ u)), x, y. replace (S (b - length (concat segs ++ u))) with (S b - length (concat segs ++ u)) by lia.
    rewrite !(slice_nth _ _ v) by lia. rewrite <- EY. destruct (nth_error ys b) as [x1|]; [|discriminate]. destruct (nth_error ys (S b)) as [y1|]; [|discriminate].
    injection Hx as ->. injection Hy as ->. cj; auto. congruence. }
  assert (HNX : ord -> forall p z x v, length p = b -> xs = p ++ r ++ x :: v -> (exists r', r = r' ++ [z]) -> lt x z = negb desc).
  { intros _. rewrite <- Hu0. apply run_next with (v := v) (p0 := old ++ u) (c2 := c2); auto; try lia.
    - rewrite EX, ER. solve_app. - rewrite !app_length. lia. - rewrite <- EY. auto. }
  assert (HPV : (bu =? last) = false -> ord -> forall x y r', u = [x] -> r = y :: r' -> lt y x = negb desc).
  { intros EB _ x' y' r' -> ->. rewrite app_length in Hu0. simpl in Hu0. destruct (HBU EB) as (Eb & _). destruct HPrev as (x1 & y1 & H1 & H2 & <-); [lia|].
    subst bu. rewrite HLN in H1. rewrite nth_pre_map_post in H1, H2 by lia. rewrite EY in H1, H2.
    rewrite <- app_assoc, nth_error_app2, Nat.sub_diag in H1 by lia. rewrite nth_error_app2 in H2 by (rewrite app_length; simpl; lia).
    rewrite app_length in H2. simpl length in H2. replace (b - (length (concat segs) + 1)) with 0 in H2 by lia. simpl in H1, H2. congruence. }
  rewrite app_length in Hu0. assert (HRS : 2 + (c2 - S b) = length r) by lia. rewrite HRS.
  assert (EX' : xs = (old ++ u ++ r) ++ v) by (rewrite EX, ER; solve_app).
  assert (HLO : length (old ++ u ++ r) = S c2) by (rewrite !app_length; lia).
  destruct (Nat.ltb_spec limit (length r)) as [H2|H2].
  - assert (HRL : length (ready desc r) = length r) by apply ready_length.
    assert (HFin : forall segs' bu' su' rs' m', found segs' (old ++ u ++ r) -> runs_at (length pre) segs' rs' -> bu' = last -> su' = 0 ->
       m' = pre ++ map Val (concat segs' ++ v) ++ post ->
       wp (if length pre + S c2 =? last then ret (inr (bu', su', rs')) else
           if S (length pre + S c2) =? last then ret (inr (S (length pre + c2), 0, rs')) else
           let* c := less_at comp proj (S (length pre + S c2)) (S (length pre + c2)) in
           ret (inl (c, bu', su', S (length pre + c2), S (length pre + S c2), rs')))
         (fun r m' => match r with
          | inl (desc', bu', su', cu', n', rs') => n' = S cu' /\ searching_bidi pre post desc' bu' su' cu' rs' m' /\ length pre + b < cu'
          | inr (bu', su', rs') => searched_bidi pre post bu' su' rs' m'
          end) m').
    { intros segs' bu' su' rs' m' HJ' HR' -> -> ->. pose proof (proj1 HJ') as HLN'. apply st_length in HLN'. rewrite HLO in HLN'.
      assert (LXV : length xs = S c2 + length v) by (rewrite EX', app_length; lia).
      destruct (Nat.eqb_spec (length pre + S c2) last) as [E|E].
      { apply wp_ret. split; auto. exists segs', (old ++ u ++ r), v. cj; auto. rewrite HLO. lia. }
      destruct (Nat.eqb_spec (S (length pre + S c2)) last) as [E'|E'].
      { apply wp_ret. split; [|lia]. exists segs', (old ++ u ++ r), v. cj; auto. rewrite HLO. lia. }
      destruct v as [|a [|a2 v]]; try (simpl in LXV; lia).
      assert (Ha : nth_error (pre ++ map Val (concat segs' ++ a :: a2 :: v) ++ post) (S (length pre + c2)) = Some (Val a)).
      { rewrite plus_n_Sm, nth_pre_map_post by (rewrite app_length; simpl; lia). rewrite nth_error_app2 by lia. now replace (S c2 - length (concat segs')) with 0 by lia. }
      assert (Ha2 : nth_error (pre ++ map Val (concat segs' ++ a :: a2 :: v) ++ post) (S (length pre + S c2)) = Some (Val a2)).
      { rewrite plus_n_Sm, nth_pre_map_post by (rewrite app_length; simpl; lia). rewrite nth_error_app2 by lia. now replace (S (S c2) - length (concat segs')) with 1 by lia. }
      apply wp_bind. eapply wp_less_at; eauto. apply wp_ret. cj; [lia| |lia]. split. { exists segs', (old ++ u ++ r), (a :: a2 :: v). cj; auto; lia. }
      cj; [lia|auto|lia|]. exists a, a2. cj; auto. now rewrite <- plus_n_Sm in Ha2. }
    apply wp_bind. destruct (bu =? last) eqn:EB; simpl negb; cbv iota.
    + destruct (HBT eq_refl) as [E1 E2]. assert (u = []) as ->. { destruct u; auto. simpl in Hu0. lia. }
      apply wp_bind. reshape ((pre ++ map Val (concat segs)) ++ map Val r ++ map Val v ++ post). { rewrite EY. solve_app. }
      apply ready_wp; [lens|lens|]. apply wp_ret. apply Nat.eqb_eq in EB.
      eapply HFin; [eapply (found_run desc r) with (pos := b); eauto; lia| |auto|auto|].
      * apply runs_at_app; auto. simpl. rewrite HRL. cj; auto; simpl in Hu0; lia.
      * rewrite concat_app. simpl. solve_app.
    + destruct (HBU eq_refl) as (-> & E2 & E3). assert (Hune : u <> []). { intros ->. simpl in Hu0. lia. }
      apply wp_bind. unfold fallback_n. apply wp_bind.
      assert (length pre + b - (length pre + length old) =? su = true) as ->. { apply Nat.eqb_eq. lia. } apply wp_ret.
      reshape ((pre ++ map Val (concat segs)) ++ map Val u ++ map Val r ++ map Val v ++ post). { rewrite EY. solve_app. }
      apply fallback_wp; [lens|lens|]. intros w Hw.
      assert (HLW : length u = length w). { destruct Hw as [Hw _]. now apply st_length in Hw. }
      apply wp_bind. reshape ((pre ++ map Val (concat segs ++ w)) ++ map Val r ++ map Val v ++ post).
      apply ready_wp; [lens|lens|]. apply wp_ret.
      eapply HFin; [eapply (found_both desc r) with (pos := b) (v := v); eauto; [lia|rewrite app_length; lia|rewrite EX, ER; auto]| |auto|auto|].
      * apply runs_at_app; auto. simpl. rewrite HRL. cj; auto; lia.
      * rewrite concat_app. simpl. solve_app.
  - assert (HB2 : (if bu =? last then length pre + b else bu) = length pre + length old /\ (length pre + length old) + su = length pre + b).
    { destruct (bu =? last). - destruct (HBT eq_refl). lia. - destruct (HBU eq_refl). lia. }
    destruct HB2 as [-> HB3]. destruct (Nat.eqb_spec (length pre + S c2) last) as [E|E]; apply wp_ret.
    + split; [|lia]. exists segs, old, rest. cj; auto.
    + cj; [lia| |lia]. destruct (nth_some _ ys c2) as (x' & Hx'); [lia|]. destruct (nth_some _ ys (S c2)) as (y' & Hy'); [lia|].
      split. { exists segs, old, rest. cj; auto; lia. } cj; [lia|lia| |].
      { intros Eb. assert (Hb1 : b = length old) by lia. assert (Hc2 : c2 = S b) by lia. subst c2. exists x, y.
        rewrite <- Hb1. rewrite !nth_pre_map_post by lia. cj; auto. rewrite Hd. now destruct desc. }
      exists x', y'. rewrite plus_n_Sm, !nth_pre_map_post by lia. rewrite Hx', Hy'. cj; auto. specialize (HOut _ _ Hx' Hy'). unfold out in HOut.
      destruct desc; simpl negb; auto. destruct stable; [now apply negb_true_iff in HOut|]. apply (lt_asym lt (HORD Ho)). auto.
Qed.

Lemma verge_bidirectional_wp : forall pre post, ord -> limit = length xs / log2 (length xs) ->
  wp (verge_sort_bidirectional comp proj cat triv o stable fallback (length pre) (length pre + length xs) (length xs))
    (fun _ m => exists ys, m = pre ++ map Val ys ++ post /\ sorting xs ys) (pre ++ map Val xs ++ post).
Proof.
  intros pre post Ho Elim. unfold verge_sort_bidirectional. destruct (Nat.ltb_spec (length xs) 128) as [H|H].
  { unfold fallback_n. apply wp_bind. replace (length pre + length xs - length pre) with (length xs) by lia. rewrite Nat.eqb_refl. apply wp_ret.
    apply fallback_wp; auto. intros w Hw. eauto. }
  rewrite <- Elim. destruct (nth_some _ xs 0) as (x & Hx); [lia|]. destruct (nth_some _ xs 1) as (y & Hy); [lia|].
  assert (Mx : nth_error (pre ++ map Val xs ++ post) (length pre) = Some (Val x)).
  { replace (length pre) with (length pre + 0) by lia. rewrite nth_pre_map_post by lia. now rewrite Hx. }
  assert (My : nth_error (pre ++ map Val xs ++ post) (S (length pre)) = Some (Val y)).
  { replace (S (length pre)) with (length pre + 1) by lia. rewrite nth_pre_map_post by lia. now rewrite Hy. }
  apply wp_bind. eapply wp_less_at; eauto. apply wp_bind.
  apply wp_loop' with (I := fun '(desc, bu, su, cu, n, rs) m => n = S cu /\ searching_bidi pre post desc bu su cu rs m)
    (mu := fun '(desc, bu, su, cu, n, rs) => length pre + length xs - cu).
  - split; auto. split. { exists [], [], xs. simpl. cj; auto using found_nil; lia. } cj; [lia|auto|lia|]. exists x, y. auto.
  - lia.
  - intros [[[[[desc bu] su] cu] n] rs] m [-> HS]. assert (cu < length pre + length xs) as Hcu. { destruct HS as ((? & ? & ? & HS) & _). tauto. }
    eapply wp_mono; [apply verge_step_bidi_wp; eauto|]. intros [[[[[[desc' bu'] su'] cu'] n'] rs']|[[bu' su'] rs']] m' HR.
    + destruct HR as (-> & HS' & Hlt). cj; auto. lia.
    + destruct HR as [(segs & old & rest & HJ & EX & HR & -> & ->) Hsu]. cbv beta iota. clear HS.
      assert (HLN : length old = length (concat segs)). { destruct HJ as (HS & _). now apply st_length in HS. }
      assert (LX : length xs = length old + length rest) by (rewrite EX at 1; rewrite app_length; auto).
      apply wp_bind. destruct (Nat.eqb_spec (length pre + length old) (length pre + length xs)) as [E|E]; simpl negb; cbv iota.
      * apply wp_ret. destruct rest; [|simpl in LX; lia]. rewrite !app_nil_r in *. subst old. destruct (found_end _ _ HJ) as (H1 & H2 & H3).
        eapply wp_mono; [apply merge_runs_wp with (stable := stable); eauto|].
        { intros ->. simpl in HLN. lia. }
        intros [] m2 (ys & -> & HS1 & HS2). exists ys. split; auto. split; auto. eapply st_trans; [apply HJ|]. auto.
      * assert (HRN : rest <> []). { intros ->. simpl in LX. lia. }
        assert (HFin : forall w, sorting rest w ->
          wp (merge_runs comp proj cat triv o (length pre) (rs' ++ [(length pre + length xs, S su')])) (fun _ m => exists ys, m = pre ++ map Val ys ++ post /\ sorting xs ys)
            (pre ++ map Val (concat segs ++ w) ++ post)).
        { intros w Hw. destruct (found_last _ _ _ _ HJ HRN Hw) as (H0 & H1 & H2 & H3). assert (HLW : length rest = length w). { destruct Hw as [Hw _]. now apply st_length in Hw. }
          reshape (pre ++ map Val (concat (segs ++ [w])) ++ post). { rewrite concat_app. simpl. solve_app. }
          eapply wp_mono; [apply merge_runs_wp with (stable := stable); eauto|].
          { apply runs_at_app; auto. simpl. cj; auto; lia. }
          { destruct segs; discriminate. }
          intros [] m2 (ys & -> & HS1 & HS2). exists ys. split; auto. split; auto. rewrite EX. eapply st_trans; eauto. }
        apply wp_bind. destruct (Nat.ltb_spec 1 (S su')) as [H1|H1].
        -- unfold fallback_n. apply wp_bind. assert (length pre + length xs - (length pre + length old) =? S su' = true) as ->. { apply Nat.eqb_eq. lia. } apply wp_ret.
           reshape ((pre ++ map Val (concat segs)) ++ map Val rest ++ post). apply fallback_wp; [lens|lens|]. intros w Hw. apply wp_ret.
           reshape (pre ++ map Val (concat segs ++ w) ++ post). auto.
        -- apply wp_ret. apply wp_ret. apply HFin. destruct rest as [|a [|]]; try (simpl in *; lia). split; [apply st_refl|]. intros _. apply sorted_one.
Qed.
End Search.

Lemma log2_eq : forall n, 1 <= n -> log2 n = Nat.log2 n.
Proof.
  assert (forall fuel n log, 1 <= n -> n <= fuel -> exists t, log2_loop fuel n log = log + t /\ 2 ^ t <= n < 2 ^ S t) as HL.
  { induction fuel as [|fuel IH]; intros n log Hn Hf; [lia|].
    cbn [log2_loop]. destruct (Nat.eqb_spec (n / 2) 0) as [E|E].
    - exists 0. apply Nat.div_small_iff in E; [|lia]. simpl. cj; lia.
    - pose proof (Nat.div_mod n 2 ltac:(lia)). pose proof (Nat.mod_upper_bound n 2 ltac:(lia)).
      destruct (IH (n / 2) (S log)) as (t & E' & Ht); [lia|lia|]. exists (S t). cj; try lia; rewrite Nat.pow_succ_r'; lia. }
  intros n Hn. destruct (HL n n 0) as (t & E & Ht); [lia|lia|]. unfold log2. rewrite E. symmetry. apply Nat.log2_unique; [lia|]. simpl Nat.add. lia.
Qed.
Lemma log2_limit : forall n, 128 <= n -> 2 <= n / log2 n.
Proof.
  intros n Hn. rewrite log2_eq by lia. pose proof (Nat.log2_spec n ltac:(lia)) as [H _].
  assert (forall k, 2 * S k <= 2 ^ S k) as HK. { induction k as [|k IHk]; [simpl; lia|]. rewrite Nat.pow_succ_r'. lia. }
  pose proof (Nat.log2_le_mono 2 n ltac:(lia)) as H1. change (Nat.log2 2) with 1 in H1. destruct (Nat.log2 n) as [|t]; [lia|].
  apply Nat.div_le_lower_bound; [lia|]. specialize (HK t). lia.
Qed.

Section Adapter.
Context {A T : Type} (comp : T -> T -> bool) (proj : A -> T).
Notation lt := (by_proj comp proj).
Variables (cat : category) (triv : bool) (o : oracle) (stable : bool) (inner : range_prog A).
Hypothesis HC : cat <> Forward.

(** Vergesort goes wrong on some of these. *)
Definition trap (xs : list A) : Prop := 128 <= length xs /\ has_isolated_element lt (length xs / Nat.log2 (length xs)) xs.

Lemma verge_adapter_runs : forall (ord : Prop) pre xs post, (ord -> strict_weak_order lt) -> (ord -> ~ trap xs) -> ord \/ cat = RandomAccess ->
  runs (sorting comp proj ord stable) inner ->
  exists ys, verge_adapter comp proj cat triv o stable inner (length pre) (length pre + length xs) (pre ++ map Val xs ++ post) = Ok tt (pre ++ map Val ys ++ post) /\
    sorting comp proj ord stable xs ys.
Proof.
  intros ord pre xs post HORD HT HO HF. unfold verge_adapter. replace (length pre + length xs - length pre) with (length xs) by lia.
  destruct (le_lt_dec 128 (length xs)) as [HN|HN].
  - assert (HISO : ord -> ~ has_isolated_element lt (length xs / log2 (length xs)) xs).
    { intros Ho H. apply (HT Ho). split; auto. now rewrite <- log2_eq by lia. }
    pose proof (log2_limit _ HN) as HLIM.
    match goal with |- exists ys, ?c ?m = _ /\ _ => assert (wp c (fun _ m' => exists ys, m' = pre ++ map Val ys ++ post /\ sorting comp proj ord stable xs ys) m) as H end.
    { destruct cat; [congruence| |].
      - destruct HO as [Ho|?]; [|discriminate]. eapply verge_bidirectional_wp; eauto.
      - eapply verge_random_access_wp; eauto. }
    apply wp_ok in H as ([] & m & E & ys & -> & HR). eauto.
  - unfold verge_sort_bidirectional, verge_sort_random_access, fallback_n.
    assert (length xs <? 128 = true) as -> by now apply Nat.ltb_lt.
    replace (length pre + length xs - length pre) with (length xs) by lia. rewrite Nat.eqb_refl.
    destruct (HF pre xs post) as (ys & E & HR). exists ys. split; auto. destruct cat; auto.
Qed.
End Adapter.
