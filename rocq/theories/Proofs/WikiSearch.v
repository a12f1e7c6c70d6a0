(** wiki_sort: the search of the internal buffers. *)
From Coq Require Import List Arith Lia Permutation Bool.
From Verif Require Import Spec.Order Lang.Mem Spec.Sorts Proofs.Wp Proofs.OrderLib Proofs.MergeLib Proofs.Search Model.Search Proofs.HalfMerge Proofs.Regions
  Proofs.GrailMerge Proofs.GrailBlocks Proofs.SpinMerge Proofs.SpinHalf Model.Wiki Proofs.WikiFind Proofs.WikiMerge Proofs.WikiLevels Proofs.WikiPull.
Import ListNotations.
Local Arguments nth_error : simpl never.
Local Arguments Nat.leb : simpl never.
Local Arguments Nat.ltb : simpl never.
Local Arguments Nat.eqb : simpl never.
Local Arguments Nat.mul : simpl never.
Local Arguments Nat.add : simpl never.
Local Arguments Nat.sub : simpl never.

Section Geometry.
Variables (n d f k c : nat).
Hypothesis Hd : 0 < d.
Hypothesis Hn : d <= n.
Hypothesis HD : c * (2 * k) = d.
(** The start of the [j]th range. *)
Definition cs (j : nat) : nat := f + bd n d k j.
Lemma kc_pos : 0 < k /\ 0 < c.
Proof. split; nia. Qed.
Lemma cs_strict : forall i j, i < j -> cs i < cs j.
Proof. intros i j H. unfold cs. pose proof (bd_strict n d Hd Hn k i (proj1 kc_pos)). pose proof (bd_mono n d Hd Hn k (S i) j H). lia. Qed.
Lemma cs_0 : cs 0 = f.
Proof. unfold cs. rewrite bd_0; auto. Qed.
Lemma next_pair_A : forall i, next_range d (k * n / d) (k * n mod d) f (st d (i * (2 * k) * n)) = ((cs (2 * i), cs (2 * i + 1)), st d ((2 * i + 1) * k * n)).
Proof. intros i. rewrite next_range_st by auto. unfold cs, bd. replace (i * (2 * k) * n) with (2 * i * k * n) by lia. replace (2 * i * k * n + k * n) with ((2 * i + 1) * k * n) by lia. reflexivity. Qed.
Lemma next_pair_B : forall i, next_range d (k * n / d) (k * n mod d) f (st d ((2 * i + 1) * k * n)) = ((cs (2 * i + 1), cs (2 * i + 2)), st d (S i * (2 * k) * n)).
Proof. intros i. rewrite next_range_st by auto. unfold cs, bd. replace ((2 * i + 1) * k * n + k * n) with ((2 * i + 2) * k * n) by lia. replace (S i * (2 * k) * n) with ((2 * i + 2) * k * n) by lia. reflexivity. Qed.
End Geometry.

Lemma fgroups_len : forall {A T} (comp : T -> T -> bool) (proj : A -> T) N P, fgroups comp proj N P -> N <= length P.
Proof. intros A T comp proj N P H. induction H; [auto|]. rewrite app_length. simpl. lia. Qed.
Lemma bgroups_len : forall {A T} (comp : T -> T -> bool) (proj : A -> T) N P, bgroups comp proj N P -> N <= length P.
Proof. intros A T comp proj N P H. induction H; [auto|]. rewrite app_length. simpl. lia. Qed.

Section Search.
Context {A T : Type} (comp : T -> T -> bool) (proj : A -> T).
Local Notation lt := (by_proj comp proj).
Implicit Types (m : mem A).
Hypothesis HC : strict_weak_order comp.
Let HW : strict_weak_order lt := swo_by_proj _ _ comp proj HC.
Variables (n d f k c : nat) (xj : nat -> list A).
Hypothesis Hd : 0 < d.
Hypothesis Hn : d <= n.
Hypothesis HD : c * (2 * k) = d.
Notation cs := (cs n d f k).
Notation kc_pos := (kc_pos n d k c Hd Hn HD).
Notation cs_strict := (cs_strict n d f k c Hd Hn HD).
Hypothesis HX : forall j, j < 2 * c -> sorted lt (xj j) /\ cs (S j) = cs j + length (xj j).
Variables (K bs B : nat) (junk : nat -> nat * nat * nat * nat).
Hypothesis HB : 2 <= B.

Lemma xj_ne : forall j, j < 2 * c -> xj j <> [].
Proof. clear HB junk B bs K. intros j Hj E. destruct (HX j Hj) as [_ H]. rewrite E in H. simpl in H. pose proof (cs_strict j (S j)). lia. Qed.


(** [p] pulls [N] values out of the A range ([b = false]) or the B range ([b = true]) of the [i]th pair. *)
Definition site (p : pull) (b : bool) (i N cut : nat) : Prop :=
  i < c /\ p_count p = N /\ 1 <= N /\ p_range p = (cs (2 * i), cs (2 * i + 2) - cut) /\
  if b then p_to p = cs (2 * i + 2) /\ exists r a s, xj (2 * i + 1) = r ++ a :: s /\ bgroups comp proj (N - 1) s /\ (forall x, In x s -> lt a x = true) /\ p_from p = cs (2 * i + 1) + length r
  else p_to p = cs (2 * i) /\ exists q a r, xj (2 * i) = q ++ a :: r /\ fgroups comp proj (N - 1) q /\ (forall x, In x q -> lt x a = true) /\ p_from p = cs (2 * i) + length q.
Definition loc (b : bool) (i N : nat) : nat := if b then cs (2 * i + 2) - N else cs (2 * i).
Definition chk (b : bool) (i : nat) : nat := if b then 2 * i + 1 else 2 * i.
Definition constant (j : nat) : Prop := forall x y, In x (xj j) -> In y (xj j) -> lt x y = false.
Definition unset (p : pull) : Prop := p_count p = 0 /\ p_range p = (f, f).

Lemma site_len : forall p b i N cut, site p b i N cut -> N <= length (xj (chk b i)).
Proof. clear HB junk B bs K.
  intros p [] i N cut (_ & _ & HN & _ & _ & H); simpl; destruct H as (x & y & z & -> & HG & _ & _); [apply bgroups_len in HG|apply fgroups_len in HG]; rewrite app_length; simpl; lia.
Qed.
Lemma site_loc : forall p b i N cut, site p b i N cut -> cs (chk b i) <= loc b i N /\ loc b i N + N <= cs (S (chk b i)) /\ (b = true -> loc b i N + N = cs (2 * i + 2)).
Proof. clear HB junk B bs K.
  intros p b i N cut H. pose proof (site_len _ _ _ _ _ H) as HL. destruct H as (Hi & _). destruct (HX (chk b i)) as [_ E]; [destruct b; simpl; lia|].
  destruct b; simpl in *; try (replace (2 * i + 2) with (S (2 * i + 1)) by lia); cj; try lia; try discriminate.
Qed.

Definition cached : bool := (0 <? K) && (bs <=? K).
Definition sep0 : bool := negb cached && (k * n / d <? B + B).
Definition find0 : nat := if cached || sep0 then B else B + B.

Definition searching (j : nat) (s : search) : Prop :=
  s_second s = false /\ s_find s = find0 /\ s_separately s = sep0 /\ s_buffer2 s = (f, f) /\ unset (s_pull1 s) /\
  (j = 0 /\ s_buffer1 s = (f, f) \/
   exists b i N, chk b i < j /\ site (s_pull0 s) b i N 0 /\ N < B /\ s_buffer1 s = (loc b i N, loc b i N + N) /\ (N = 1 -> b = false /\ forall j', j' < j -> constant j')).
Definition found_one (j : nat) (s : search) : Prop :=
  s_second s = true /\ s_find s = B /\ s_separately s = false /\ s_buffer2 s = (f, f) /\ unset (s_pull1 s) /\ cached = false /\
  exists b i N, chk b i < j /\ site (s_pull0 s) b i N 0 /\ B <= N /\ s_buffer1 s = (loc b i N, loc b i N + N).
Definition found_all (s : search) : Prop := exists b i N,
  (site (s_pull0 s) b i N 0 /\ (N = 1 -> b = false /\ forall j', j' < 2 * c -> constant j') /\ s_buffer1 s = (loc b i N, loc b i N + N) /\ s_buffer2 s = (f, f) /\ unset (s_pull1 s)) \/
  (site (s_pull0 s) b i N 0 /\ N = B + B /\ s_buffer1 s = (loc b i N, loc b i N + B) /\ s_buffer2 s = (loc b i N + B, loc b i N + B + B) /\ unset (s_pull1 s)) \/
  (exists b' i', site (s_pull0 s) b i N (if i =? i' then B else 0) /\ B <= N /\ site (s_pull1 s) b' i' B 0 /\ (i < i' \/ i = i' /\ b = false /\ b' = true) /\
     s_buffer1 s = (loc b i N, loc b i N + N) /\ s_buffer2 s = (loc b' i' B, loc b' i' B + B)).
Definition progress (j : nat) (r : search * bool) : Prop := if snd r then found_all (fst r) else searching j (fst r) \/ found_one j (fst r).

Lemma sep_find : find0 <> B + B -> cached = false -> sep0 = true.
Proof. unfold find0. intros H E. rewrite E in H. simpl in H. destruct sep0; auto; congruence. Qed.
Lemma find0_cases : find0 = B \/ find0 = B + B /\ cached = false /\ sep0 = false.
Proof. unfold find0. destruct cached, sep0; auto. Qed.

Lemma step_A : forall i s N q a r, i < c -> searching (2 * i) s \/ found_one (2 * i) s -> xj (2 * i) = q ++ a :: r -> fgroups comp proj (N - 1) q -> (forall x, In x q -> lt x a = true) ->
  1 <= N <= s_find s -> (N < s_find s -> forall x, In x r -> lt a x = false) ->
  progress (2 * i + 1) (found_in_A K bs B (cs (2 * i), cs (2 * i + 1)) (cs (2 * i + 1), cs (2 * i + 2)) N (cs (2 * i) + length q) s).
Proof.
  intros i s N q a r Hi HS EX HG HQ HN HF. set (p := {| p_from := cs (2 * i) + length q; p_to := cs (2 * i); p_count := N; p_range := (cs (2 * i), cs (2 * i + 2)) |}).
  assert (site p false i N 0) as HP. { unfold site, p. simpl. rewrite Nat.sub_0_r. cj; auto; try lia. exists q, a, r. auto. }
  assert (N = 1 -> N < s_find s -> constant (2 * i)) as HK1.
  { intros -> H x y Hx Hy. destruct (HX (2 * i)) as [OX _]; [lia|]. rewrite EX in *. simpl in HG. inversion HG; subst. simpl in *. apply sorted_cons in OX as [OX _].
    assert (lt a y = false) as E1 by (destruct Hy as [<-|Hy]; [apply (swo_irrefl lt HW)|now apply HF]). assert (le lt a x) as E2 by (destruct Hx as [<-|Hx]; [apply (le_refl lt HW)|now apply OX]).
    destruct (lt x y) eqn:E; auto. rewrite (le_lt_trans lt HW _ _ _ E2 E) in E1. discriminate. }
  unfold found_in_A, start, end_. simpl fst. simpl snd. destruct (Nat.leb_spec B N) as [H|H].
  - destruct HS as [(S1 & S2 & S3 & S4 & S5 & _)|(S1 & S2 & S3 & S4 & S5 & S6 & b & i0 & N0 & T1 & T2 & T3 & T4)].
    + unfold do_pull, start, end_. simpl. rewrite S1, S2, S3. fold p. destruct (Nat.eqb_spec N (B + B)) as [->|E].
      { unfold progress. simpl. exists false, i, (B + B). right. left. simpl. cj; auto. f_equal. lia. }
      destruct (Nat.eqb_spec find0 (B + B)) as [E1|E1].
      { destruct find0_cases as [E2|(E2 & E3 & E4)]; [lia|]. unfold progress. simpl. right. unfold found_one. simpl. cj; auto. exists false, i, N. cj; auto. simpl. lia. }
      fold cached. destruct cached eqn:EC.
      { unfold progress. simpl. exists false, i, N. left. simpl. cj; auto. lia. }
      rewrite sep_find by auto. unfold progress. simpl. right. unfold found_one. simpl. cj; auto; try lia.
      { destruct find0_cases as [E2|(E2 & _)]; lia. } { exists false, i, N. cj; auto. simpl. lia. }
    + rewrite S2 in *. assert (N = B) as -> by lia. unfold do_pull, start, end_. simpl. rewrite S1, S2, S3. fold p. destruct (Nat.eqb_spec B (B + B)); [lia|]. fold cached. rewrite S6.
      unfold progress. simpl. exists b, i0, N0. right. right. exists false, i. simpl. assert (i0 < i) as Hlt by (destruct b; simpl in T1; lia).
      replace (i0 =? i) with false by (symmetry; apply Nat.eqb_neq; lia). cj; auto.
  - destruct HS as [(S1 & S2 & S3 & S4 & S5 & S6)|HS].
    + rewrite S1. simpl negb. simpl andb. assert (N < s_find s) as HNF by (rewrite S2; destruct find0_cases; lia).
      destruct (Nat.ltb_spec (len (s_buffer1 s)) N) as [H1|H1]; unfold progress; simpl; left.
      * unfold searching, do_pull, start, end_. simpl. rewrite S1. fold p. cj; auto. right. exists false, i, N. cj; auto. { simpl. lia. }
        intros ->. cj; auto. intros j' Hj. destruct S6 as [[E6 _]|(b & i0 & N0 & T1 & T2 & T3 & T4 & T5)].
        -- assert (j' = 2 * i) as -> by lia. now apply HK1.
        -- rewrite T4 in H1. unfold len, start, end_ in H1. simpl in H1. destruct T2 as (_ & _ & T2 & _). lia.
      * unfold searching. cj; auto. right. destruct S6 as [[E6 E7]|(b & i0 & N0 & T1 & T2 & T3 & T4 & T5)].
        -- rewrite E7 in H1. unfold len, start, end_ in H1. simpl in H1. lia.
        -- exists b, i0, N0. cj; auto; try lia. intros ->. destruct (T5 eq_refl) as [T6 T7]. split; auto. intros j' Hj. rewrite T4 in H1. unfold len, start, end_ in H1. simpl in H1.
           destruct (Nat.eq_dec j' (2 * i)) as [->|]; [|apply T7; lia]. apply HK1; lia.
    + destruct HS as (S1 & HS'). rewrite S1. simpl. unfold progress. simpl. right. unfold found_one. destruct HS' as (S2 & S3 & S4 & S5 & S6 & b & i0 & N0 & T1 & T2 & T3 & T4). cj; auto. exists b, i0, N0. cj; auto. lia.
Qed.

Lemma step_B : forall i s N r a q, i < c -> searching (2 * i + 1) s \/ found_one (2 * i + 1) s -> xj (2 * i + 1) = r ++ a :: q -> bgroups comp proj (N - 1) q -> (forall x, In x q -> lt a x = true) ->
  1 <= N <= s_find s -> (N < s_find s -> forall x, In x r -> lt x a = false) ->
  progress (2 * i + 2) (found_in_B K bs B (cs (2 * i), cs (2 * i + 1)) (cs (2 * i + 1), cs (2 * i + 2)) N (cs (2 * i + 1) + length r) s).
Proof.
  intros i s N r a q Hi HS EX HG HQ HN HF. set (p := {| p_from := cs (2 * i + 1) + length r; p_to := cs (2 * i + 2); p_count := N; p_range := (cs (2 * i), cs (2 * i + 2)) |}).
  assert (site p true i N 0) as HP. { unfold site, p. simpl. rewrite Nat.sub_0_r. cj; auto; try lia. exists r, a, q. auto. }
  assert (loc true i N + N = cs (2 * i + 2)) as HL by (now apply (site_loc _ _ _ _ _ HP)). simpl in HL.
  assert (N = 1 -> N < s_find s -> constant (2 * i + 1)) as HK1.
  { intros -> H x y Hx Hy. destruct (HX (2 * i + 1)) as [OX _]; [lia|]. rewrite EX in *. simpl in HG. inversion HG; subst.
    assert (lt x a = false) as E1 by (apply in_app_or in Hx as [Hx|[<-|[]]]; [now apply HF|apply (swo_irrefl lt HW)]). assert (le lt y a) as E2 by (apply (sorted_last_max comp proj HW r); auto).
    destruct (lt x y) eqn:E; auto. rewrite (lt_le_trans lt HW _ _ _ E E2) in E1. discriminate. }
  unfold found_in_B, start, end_. simpl fst. simpl snd. destruct (Nat.leb_spec B N) as [H|H].
  - destruct HS as [(S1 & S2 & S3 & S4 & S5 & _)|(S1 & S2 & S3 & S4 & S5 & S6 & b & i0 & N0 & T1 & T2 & T3 & T4)].
    + unfold do_pull, start, end_. simpl. rewrite S1, S2, S3. fold p. destruct (Nat.eqb_spec N (B + B)) as [->|E].
      { unfold progress. simpl. exists true, i, (B + B). right. left. simpl. cj; auto; f_equal; lia. }
      destruct (Nat.eqb_spec find0 (B + B)) as [E1|E1].
      { destruct find0_cases as [E2|(E2 & E3 & E4)]; [lia|]. unfold progress. simpl. right. unfold found_one. simpl. cj; auto. exists true, i, N. cj; auto; simpl; try lia; try (f_equal; lia). }
      fold cached. destruct cached eqn:EC.
      { unfold progress. simpl. exists true, i, N. left. simpl. cj; auto; try lia; try (f_equal; lia). }
      rewrite sep_find by auto. unfold progress. simpl. right. unfold found_one. simpl. cj; auto; try lia.
      { destruct find0_cases as [E2|(E2 & _)]; lia. } { exists true, i, N. cj; auto; simpl; try lia; try (f_equal; lia). }
    + rewrite S2 in *. assert (N = B) as -> by lia. unfold do_pull, start, end_. simpl. rewrite S1, S2, S3. fold p. destruct (Nat.eqb_spec B (B + B)); [lia|]. fold cached. rewrite S6.
      pose proof T2 as (T5 & T6 & T7 & T8 & T9). unfold shorten_pull0, start, end_. simpl. rewrite T8. simpl fst. simpl snd. rewrite Nat.sub_0_r.
      assert (i0 < i \/ i0 = i /\ b = false) as Hlt by (destruct b; simpl in T1; lia).
      destruct (Nat.eqb_spec (cs (2 * i0)) (cs (2 * i))) as [E|E].
      * assert (i0 = i) as ->. { destruct Hlt as [Hlt|Hlt]; [|lia]. pose proof (cs_strict (2 * i0) (2 * i)). lia. } destruct Hlt as [|[_ ->]]; [lia|].
        unfold progress. simpl. exists false, i, N0. right. right. exists true, i. simpl. rewrite Nat.eqb_refl. cj; auto; try (f_equal; lia). all: unfold site; simpl; cj; auto; apply T9.
      * unfold progress. simpl. exists b, i0, N0. right. right. exists true, i. simpl. assert (i0 <> i) by (intros ->; lia). replace (i0 =? i) with false by (symmetry; apply Nat.eqb_neq; lia).
        cj; auto; try tauto; try (f_equal; lia).
  - destruct HS as [(S1 & S2 & S3 & S4 & S5 & S6)|HS].
    + rewrite S1. simpl negb. simpl andb. assert (N < s_find s) as HNF by (rewrite S2; destruct find0_cases; lia).
      destruct (Nat.ltb_spec (len (s_buffer1 s)) N) as [H1|H1]; unfold progress; simpl; left.
      * destruct S6 as [[E6 _]|(b & i0 & N0 & T1 & T2 & T3 & T4 & T5)]; [lia|]. rewrite T4 in H1. unfold len, start, end_ in H1. simpl in H1. destruct T2 as (_ & _ & T2 & _).
        unfold searching, do_pull, start, end_. simpl. rewrite S1. fold p. cj; auto. right. exists true, i, N. cj; auto; simpl; try lia; f_equal; lia.
      * unfold searching. cj; auto. right. destruct S6 as [[E6 E7]|(b & i0 & N0 & T1 & T2 & T3 & T4 & T5)].
        -- rewrite E7 in H1. unfold len, start, end_ in H1. simpl in H1. lia.
        -- exists b, i0, N0. cj; auto; try lia. intros ->. destruct (T5 eq_refl) as [T6 T7]. split; auto. intros j' Hj. rewrite T4 in H1. unfold len, start, end_ in H1. simpl in H1.
           destruct (Nat.eq_dec j' (2 * i + 1)) as [->|]; [|apply T7; lia]. apply HK1; lia.
    + destruct HS as (S1 & HS'). rewrite S1. simpl. unfold progress. simpl. right. unfold found_one. destruct HS' as (S2 & S3 & S4 & S5 & S6 & b & i0 & N0 & T1 & T2 & T3 & T4). cj; auto. exists b, i0, N0. cj; auto. lia.
Qed.

Lemma find_buffers_wp : forall m (Q : search -> mem A -> Prop), (forall j, j < 2 * c -> seg m (cs j) (xj j)) -> (forall s, found_all s -> Q s m) ->
  wp (find_buffers comp proj junk f n d (k * n / d) (k * n mod d) K bs B) Q m.
Proof.
  intros m Q SM HQ. unfold find_buffers.
  assert (forall s, searching (2 * c) s \/ found_one (2 * c) s -> found_all s) as HE.
  { intros s [(S1 & S2 & S3 & S4 & S5 & [[E _]|(b & i & N & T1 & T2 & T3 & T4 & T5)])|(S1 & S2 & S3 & S4 & S5 & S6 & b & i & N & T1 & T2 & T3 & T4)].
    - pose proof kc_pos. lia.
    - exists b, i, N. left. cj; auto.
    - exists b, i, N. left. cj; auto. lia. }
  apply wp_loop' with (I := fun '(p, s) m1 => m1 = m /\ exists i, i <= c /\ p = st d (i * (2 * k) * n) /\ (searching (2 * i) s \/ found_one (2 * i) s)) (mu := fun '(p, _) => n - fst p).
  - split; auto. exists 0. cj; try lia.
    + unfold st. replace (0 * (2 * k) * n) with 0 by lia. rewrite Nat.div_0_l, Nat.mod_0_l; auto; lia.
    + left. unfold search_init. destruct (junk (k * n / d)) as [[[x1 x2] x3] x4]. unfold searching. simpl. fold cached. fold sep0. fold find0. cj; auto. split; auto.
  - simpl. lia.
  - intros [p s] m1 (-> & i & Hi & -> & HS). unfold st at 1. simpl fst. change (i * (2 * k) * n / d) with (bd n d (2 * k) i). rewrite (bd_end n d Hd Hn (2 * k) c i HD).
    destruct (Nat.leb_spec c i) as [H|H]. { apply wp_ret. apply HQ, HE. assert (i = c) as -> by lia. auto. }
    rewrite (next_pair_A n d f k c Hd Hn HD), (next_pair_B n d f k c Hd Hn HD). destruct (HX (2 * i)) as [OA EA]; [lia|]. destruct (HX (2 * i + 1)) as [OB EB]; [lia|]. replace (S (2 * i)) with (2 * i + 1) in EA by lia. replace (S (2 * i + 1)) with (2 * i + 2) in EB by lia.
    assert (forall j s, searching j s \/ found_one j s -> 1 <= s_find s) as HF. { intros j s0 [(_ & -> & _)|(_ & -> & _)]; [destruct find0_cases; lia|lia]. }
    apply wp_bind. eapply (count_forward_wp comp proj HC (xj (2 * i))); [exact OA|apply xj_ne; lia|apply SM; lia|f_equal; lia|eapply HF; eauto|].
    intros N q a r EX HG HP HN HM. pose proof (step_A i s N q a r H HS EX HG HP HN HM) as HS1.
    destruct (found_in_A _ _ _ _ _ _ _ _) as [s1 done]. unfold progress in HS1. simpl in HS1. destruct done. { apply wp_ret. auto. }
    apply wp_bind. eapply (count_backward_wp comp proj HC (xj (2 * i + 1))); [exact OB|apply xj_ne; lia|apply SM; lia|f_equal; lia|eapply HF; eauto|].
    intros N' r' a' q' EX' HG' HP' HN' HM'. pose proof (step_B i s1 N' r' a' q' H HS1 EX' HG' HP' HN' HM') as HS2.
    destruct (found_in_B _ _ _ _ _ _ _ _) as [s2 done]. unfold progress in HS2. simpl in HS2. destruct done. { apply wp_ret. auto. }
    apply wp_ret. split.
    + split; auto. exists (S i). cj; auto. replace (2 * S i) with (2 * i + 2) by lia. auto.
    + unfold st. simpl fst. change (S i * (2 * k) * n / d) with (bd n d (2 * k) (S i)). change (i * (2 * k) * n / d) with (bd n d (2 * k) i).
      pose proof (bd_strict n d Hd Hn (2 * k) i ltac:(pose proof kc_pos; lia)). pose proof (bd_mono n d Hd Hn (2 * k) (S i) c H). rewrite (bd_top n d Hd Hn (2 * k) c HD) in *. lia.
Qed.
End Search.
