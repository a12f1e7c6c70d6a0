(** wiki_sort: pulling distinct values out of a sorted range, and putting them back. *)
From Coq Require Import List Arith Lia Permutation Bool.
From Verif Require Import Spec.Order Lang.Mem Spec.Sorts Proofs.Wp Proofs.OrderLib Proofs.MergeLib Model.Rotate Proofs.RotateGcd Proofs.Search Model.Search Proofs.HalfMerge Proofs.Regions
  Model.Heap Proofs.Heap Model.Insertion Proofs.Insertion Proofs.MergeSort Proofs.BufMerge Proofs.GrailMerge Proofs.GrailBlocks Model.Merge Model.Spin Proofs.SpinMerge Proofs.SpinHalf Model.Wiki Proofs.WikiFind Proofs.WikiMerge.
Import ListNotations.
Local Arguments nth_error : simpl never.
Local Arguments upd : simpl never.
Local Arguments Nat.leb : simpl never.
Local Arguments Nat.ltb : simpl never.
Local Arguments Nat.eqb : simpl never.
Local Arguments Nat.mul : simpl never.

Section Pull.
Context {A T : Type} (comp : T -> T -> bool) (proj : A -> T) (triv : bool).
Local Notation lt := (by_proj comp proj).
Local Notation same := (same_order_in_classes lt).
Implicit Types (m : mem A).
Hypothesis HC : strict_weak_order comp.
Let HW : strict_weak_order lt := swo_by_proj _ _ comp proj HC.

(** ** Runs of equivalent elements *)
Inductive fgroups : nat -> list A -> Prop :=
| fgroups_nil : fgroups 0 []
| fgroups_cons : forall k P a r, fgroups k P -> (forall x, In x P -> lt x a = true) -> (forall x, In x r -> lt x a = false /\ lt a x = false) -> fgroups (S k) (P ++ a :: r).
Inductive bgroups : nat -> list A -> Prop :=
| bgroups_nil : bgroups 0 []
| bgroups_cons : forall k r a S', bgroups k S' -> (forall x, In x S' -> lt a x = true) -> (forall x, In x r -> lt x a = false /\ lt a x = false) -> bgroups (S k) (r ++ a :: S').

Lemma sorted_remove : forall x b y, sorted lt (x ++ b :: y) -> sorted lt (x ++ y).
Proof.
  intros x b y H. apply sorted_app in H as (H1 & H2 & H3). apply sorted_cons in H2 as [H2 H4]. apply sorted_app. cj; auto. intros u v Hu Hv. apply H3; auto. now right.
Qed.
Lemma same_swap_mid : forall p x y q, (forall a b, In a x -> In b y -> lt a b = true) -> same (p ++ x ++ y ++ q) (p ++ y ++ x ++ q).
Proof.
  intros p x y q H. apply same_app; [apply same_refl|]. rewrite !(app_assoc _ _ q). apply same_app; [|apply same_refl].
  apply same_sym, (same_swap lt HW). intros; now apply H.
Qed.
Lemma equiv_lt_l : forall a b c, lt a b = false -> lt b a = false -> lt a c = true -> lt b c = true.
Proof. intros a b c H1 H2 H3. eapply (le_lt_trans lt HW); [|exact H3]. exact H1. Qed.
Lemma equiv_lt_r : forall a b c, lt a b = false -> lt b a = false -> lt c a = true -> lt c b = true.
Proof. intros a b c H1 H2 H3. eapply (lt_le_trans lt HW); [exact H3|]. exact H2. Qed.

(** ** Counting *)
Lemma count_forward_wp : forall xs m f find RA (Q : nat * nat -> mem A -> Prop), sorted lt xs -> xs <> [] -> seg m f xs -> RA = (f, f + length xs) -> 1 <= find ->
  (forall n P a r, xs = P ++ a :: r -> fgroups (n - 1) P -> (forall x, In x P -> lt x a = true) -> 1 <= n <= find -> (n < find -> forall x, In x r -> lt a x = false) ->
     Q (n, f + length P) m) ->
  wp (count_forward comp proj RA find) Q m.
Proof.
  intros xs m f find RA Q OX NX SX -> HF HQ. unfold count_forward, start, end_. simpl fst. simpl snd.
  apply wp_loop' with
    (I := fun '(last, count) m1 => m1 = m /\ exists P a r, xs = P ++ a :: r /\ last = f + length P /\ fgroups (count - 1) P /\ (forall x, In x P -> lt x a = true) /\ 1 <= count <= find)
    (mu := fun '(_, count) => find - count).
  - split; auto. destruct xs as [|a r]; [congruence|]. exists [], a, r. simpl. cj; auto; try lia. constructor.
  - lia.
  - intros [last count] m1 (-> & P & a & r & E & -> & HG & HP & HB). destruct (Nat.ltb_spec count find) as [H|H].
    + rewrite E in OX, SX. pose proof OX as OX'. apply (sorted_app_r comp proj) in OX'. apply sorted_cons in OX' as [HM OR].
      destruct (split_upper comp proj HW r a OR) as (r1 & r2 & -> & H1 & H2). apply seg_app in SX as [SP SX]. apply seg_cons in SX as [VA SR].
      apply wp_bind. eapply wp_get; [exact VA|]. apply wp_bind. eapply (find_last_forward_region comp proj (r1 ++ r2)) with (c := length r1); [have SR|rewrite E; rewrite !app_length; simpl; rewrite app_length; lia|lia| |].
      * rewrite E. rewrite !app_length. simpl length. rewrite app_length. destruct (Nat.eqb_spec (S (f + length P) + length r1) (f + (length P + S (length r1 + length r2)))) as [E1|E1]; apply wp_ret.
        -- destruct r2; [|simpl in E1; lia]. eapply HQ; eauto. intros _. intros x Hx. rewrite app_nil_r in Hx. auto.
        -- split; [|lia]. split; auto. destruct r2 as [|b r2]; [simpl in E1; lia|]. exists (P ++ a :: r1), b, r2. cj; try lia.
           ++ now rewrite <- app_assoc.
           ++ rewrite app_length. simpl. lia.
           ++ replace (S count - 1) with (S (count - 1)) by lia. constructor; auto. intros x Hx. split; [|auto]. apply HM. apply in_or_app; auto.
           ++ assert (lt a b = true) as Hab by (apply H2; now left). intros x Hx. apply in_app_or in Hx as [Hx|[<-|Hx]]; auto.
              ** eapply (swo_trans lt HW); eauto.
              ** apply (equiv_lt_l a x b); auto. apply HM. apply in_or_app; auto.
      * apply cutp_intro; intros x Hx; [apply negb_true_iff; now apply H1|apply negb_false_iff; now apply H2].
    + apply wp_ret. eapply HQ; eauto. lia.
Qed.

Lemma count_backward_wp : forall xs m f find RB (Q : nat * nat -> mem A -> Prop), sorted lt xs -> xs <> [] -> seg m f xs -> RB = (f, f + length xs) -> 1 <= find ->
  (forall n r a S', xs = r ++ a :: S' -> bgroups (n - 1) S' -> (forall x, In x S' -> lt a x = true) -> 1 <= n <= find -> (n < find -> forall x, In x r -> lt x a = false) ->
     Q (n, f + length r) m) ->
  wp (count_backward comp proj RB find) Q m.
Proof.
  intros xs m f find RB Q OX NX SX -> HF HQ. unfold count_backward, start, end_. simpl fst. simpl snd.
  apply wp_loop' with
    (I := fun '(last, count) m1 => m1 = m /\ exists r a S', xs = r ++ a :: S' /\ last = f + length r /\ bgroups (count - 1) S' /\ (forall x, In x S' -> lt a x = true) /\ 1 <= count <= find)
    (mu := fun '(_, count) => find - count).
  - split; auto. destruct (last_split _ xs NX) as (r & a & ->). exists r, a, []. rewrite app_length. simpl. cj; auto; try lia. constructor.
  - lia.
  - intros [last count] m1 (-> & r & a & S' & E & -> & HG & HP & HB). destruct (Nat.ltb_spec count find) as [H|H].
    + rewrite E in OX, SX. pose proof OX as OX'. apply sorted_app in OX' as (OR & OS & HM). 
      destruct (split_lower comp proj HW r a OR) as (r1 & r2 & -> & H1 & H2). apply seg_app in SX as [SP SX]. apply seg_cons in SX as [VA SR].
      apply wp_bind. eapply wp_get; [exact VA|]. apply wp_bind. eapply (find_first_backward_region comp proj (r1 ++ r2)) with (c := length r1); [exact SP|auto|lia| |].
      * destruct (Nat.eqb_spec (f + length r1) f) as [E1|E1]; apply wp_ret.
        -- destruct r1; [|simpl in E1; lia]. eapply HQ; eauto.
        -- split; [|lia]. split; auto. destruct (last_split _ r1) as (r0 & b & ->); [intros ->; simpl in E1; lia|]. exists r0, b, (r2 ++ a :: S'). cj; try lia.
           ++ rewrite E. now rewrite <- !app_assoc.
           ++ rewrite app_length. simpl. lia.
           ++ replace (S count - 1) with (S (count - 1)) by lia. constructor; auto. intros x Hx. split; [auto|]. apply HM; [apply in_or_app; auto|now left].
           ++ assert (lt b a = true) as Hab by (apply H1; apply in_or_app; right; now left). intros x Hx. apply in_app_or in Hx as [Hx|[<-|Hx]]; auto.
              ** apply (equiv_lt_r a x b); auto. apply HM; [apply in_or_app; auto|now left].
              ** eapply (swo_trans lt HW); eauto.
      * apply cutp_intro; [exact H1|exact H2].
    + apply wp_ret. eapply HQ; eauto. lia.
Qed.

(** ** Pulling out *)
Lemma fgroups_inv : forall k P, fgroups (S k) P -> exists P' a r, P = P' ++ a :: r /\ fgroups k P' /\ (forall x, In x P' -> lt x a = true) /\ (forall x, In x r -> lt x a = false /\ lt a x = false).
Proof. intros k P H. inversion H; subst. eauto 9. Qed.
Lemma bgroups_inv : forall k S0, bgroups (S k) S0 -> exists r a S', S0 = r ++ a :: S' /\ bgroups k S' /\ (forall x, In x S' -> lt a x = true) /\ (forall x, In x r -> lt x a = false /\ lt a x = false).
Proof. intros k P H. inversion H; subst. eauto 9. Qed.

Lemma pull_left_wp : forall n P a r m f from to (Q : nat -> mem A -> Prop), sorted lt (P ++ a :: r) -> fgroups (n - 1) P -> (forall x, In x P -> lt x a = true) -> 1 <= n ->
  seg m f (P ++ a :: r) -> from = f + length P -> to = f ->
  (forall u rest from' m', length u = n -> strict lt u -> sorted lt rest -> same (P ++ a :: r) (u ++ rest) -> seg m' f (u ++ rest) ->
     only (within f (length (P ++ a :: r))) m m' -> (2 <= n -> f < from') -> Q from' m') ->
  wp (pull_left comp proj triv from to n) Q m.
Proof.
  intros n P a r m f from to Q OX HG HP HN SX -> -> HQ. unfold pull_left. set (xs := P ++ a :: r) in *.
  apply wp_loop' with
    (I := fun '(count, index, from) m1 => exists P1 u rest, fgroups (n - count) P1 /\ length u = count /\ 1 <= count <= n /\ strict lt u /\ (forall x y, In x P1 -> In y u -> lt x y = true) /\
       sorted lt (P1 ++ rest) /\ same xs (P1 ++ u ++ rest) /\ seg m1 f (P1 ++ u ++ rest) /\ index = f + length P1 /\ S from = index + count /\ (2 <= count -> f < from) /\
       only (within f (length xs)) m m1)
    (mu := fun '(count, _, _) => n - count).
  - exists P, [a], r. simpl app. cj; auto; try lia.
    + constructor; [intros y []|constructor].
    + intros x y Hx [<-|[]]. auto.
    + eapply sorted_remove; eauto.
    + apply same_refl.
    + apply only_refl.
  - lia.
  - intros [[count index] from] m1 (P1 & u & rest & HG1 & HU & HB & ST & HLT & OR & SA & S1 & -> & EF & HF & O1). destruct (Nat.ltb_spec count n) as [H|H].
    + replace (n - count) with (S (n - S count)) in HG1 by lia. apply fgroups_inv in HG1 as (P2 & b & r2 & -> & HG2 & HP2 & HR2).
      assert (length xs = length ((P2 ++ b :: r2) ++ u ++ rest)) as EL by (apply Permutation_length, (same_perm lt HW); auto). repeat (rewrite ?app_length in EL; simpl length in EL).
      assert (exists v, nth_error m1 (f + length (P2 ++ b :: r2) - 1) = Some (Val v) /\ lt v b = false /\ lt b v = false) as (v & VV & HV1 & HV2).
      { destruct (last_split _ (b :: r2)) as (t & v & E); [discriminate|]. exists v. split.
        - apply seg_app in S1 as [S1 _]. rewrite E, app_assoc in S1 |- *. now apply seg_last in S1.
        - assert (In v (b :: r2)) as [->|Hv] by (rewrite E; apply in_or_app; right; now left); auto. split; apply (swo_irrefl lt HW). }
      apply wp_bind. eapply wp_get; [exact VV|]. pose proof S1 as S1'. apply seg_app in S1 as [SP SR].
      apply wp_bind. eapply (find_first_backward_region comp proj (P2 ++ b :: r2)) with (c := length P2); [exact SP|lia|lia| |].
      2:{ apply cutp_intro. { intros x Hx. apply (equiv_lt_r b v x); auto. }
          intros x Hx. assert (lt b x = false /\ lt x b = false) as [E1 E2] by (destruct Hx as [<-|Hx]; [split; apply (swo_irrefl lt HW)|split; now apply HR2]).
          destruct (comp (proj x) (proj v)) eqn:E; auto. exfalso. assert (lt b v = true) by (eapply (equiv_lt_l x b v); auto). congruence. }
      rewrite app_length in *. simpl length in *.
      rewrite <- app_assoc in S1'. simpl app in S1'. apply seg_app in S1' as [SP2 S1']. apply seg_cons in S1' as [Vb S1']. rewrite app_assoc in S1'. apply seg_app in S1' as [SU SRest]. rewrite app_length in SRest.
      apply wp_bind. eapply (rotate_region triv r2 u); [have SU|lia|lia|]. intros m2 S2 O2. apply wp_ret. split; [|lia].
      exists P2, (b :: u), (r2 ++ rest). simpl length. cj; auto; try lia.
      * constructor; auto. intros y Hy. apply HLT; auto. apply in_elt.
      * intros x y Hx [<-|Hy]; auto. apply HLT; auto. apply in_or_app; auto.
      * rewrite <- app_assoc in OR. eapply sorted_remove; eauto.
      * eapply same_trans; [exact SA|]. rewrite <- !app_assoc. simpl app. apply same_app; [apply same_refl|]. apply same_cons. apply (same_swap_mid [] r2 u rest).
        intros x y Hx Hy. apply HLT; auto. apply in_or_app. right. now right.
      * simpl app. apply seg_app. split; [keep O2 SP2|]. apply seg_cons. split; [keep O2 Vb|].
        rewrite app_assoc. apply seg_app. split; [have S2|]. rewrite app_length. keep O2 SRest.
      * eapply only_trans; [exact O1|]. eapply only_weaken; [exact O2|win].
    + assert (count = n) as -> by lia. replace (n - n) with 0 in HG1 by lia. inversion HG1; subst. simpl app in *. apply wp_ret. eapply HQ; eauto.
Qed.

Lemma pull_right_wp : forall n r a S0 m f from to (Q : nat -> mem A -> Prop), sorted lt (r ++ a :: S0) -> bgroups (n - 1) S0 -> (forall x, In x S0 -> lt a x = true) -> 1 <= n ->
  seg m f (r ++ a :: S0) -> from = f + length r -> to = f + length (r ++ a :: S0) ->
  (forall u rest from' m', length u = n -> strict lt u -> sorted lt rest -> same (r ++ a :: S0) (rest ++ u) -> seg m' f (rest ++ u) ->
     only (within f (length (r ++ a :: S0))) m m' -> from' < to -> Q from' m') ->
  wp (pull_right comp proj triv from to n) Q m.
Proof.
  intros n r a S0 m f from to Q OX HG HP HN SX -> -> HQ. unfold pull_right. set (xs := r ++ a :: S0) in *.
  apply wp_loop' with
    (I := fun '(count, index, from) m1 => exists rest u S1, bgroups (n - count) S1 /\ length u = count /\ 1 <= count <= n /\ strict lt u /\ (forall x y, In x u -> In y S1 -> lt x y = true) /\
       sorted lt (rest ++ S1) /\ same xs (rest ++ u ++ S1) /\ seg m1 f (rest ++ u ++ S1) /\ from = f + length rest /\ index = from + count /\
       only (within f (length xs)) m m1)
    (mu := fun '(count, _, _) => n - count).
  - exists r, [a], S0. simpl app. cj; auto; try (simpl; lia).
    + constructor; [intros y []|constructor].
    + intros x y [<-|[]] Hy. auto.
    + eapply sorted_remove; eauto.
    + apply same_refl.
    + apply only_refl.
  - lia.
  - intros [[count index] from] m1 (rest & u & S1 & HG1 & HU & HB & ST & HLT & OR & SA & M1 & -> & -> & O1).
    assert (length xs = length (rest ++ u ++ S1)) as EL by (apply Permutation_length, (same_perm lt HW); auto). rewrite !app_length in EL.
    destruct (Nat.ltb_spec count n) as [H|H].
    + replace (n - count) with (S (n - S count)) in HG1 by lia. apply bgroups_inv in HG1 as (r2 & b & S2 & -> & HG2 & HP2 & HR2).
      rewrite app_length in EL. simpl length in EL.
      pose proof M1 as M1'. apply seg_app in M1 as [SR M1]. apply seg_app in M1 as [SU SS].
      assert (exists v, nth_error m1 (f + length rest + count) = Some (Val v) /\ lt v b = false /\ lt b v = false) as (v & VV & HV1 & HV2).
      { assert (exists v t, r2 ++ [b] = v :: t) as (v & t & E) by (destruct r2; simpl; eauto). exists v. split.
        - replace (r2 ++ b :: S2) with ((v :: t) ++ S2) in SS by (rewrite <- E, <- app_assoc; auto). simpl app in SS. apply seg_cons in SS as [SS _]. rewrite HU in SS. exact SS.
        - assert (In v (r2 ++ [b])) as Hv by (rewrite E; now left). apply in_app_or in Hv as [Hv|[<-|[]]]; auto. split; apply (swo_irrefl lt HW). }
      apply wp_bind. eapply wp_get; [exact VV|]. rewrite HU in SS.
      apply wp_bind. eapply (find_last_forward_region comp proj (r2 ++ b :: S2)) with (c := length (r2 ++ [b])); [exact SS|rewrite app_length; simpl length; lia|lia| |].
      2:{ replace (r2 ++ b :: S2) with ((r2 ++ [b]) ++ S2) by now rewrite <- app_assoc. apply cutp_intro.
          - intros x Hx. apply negb_true_iff. assert (lt x b = false /\ lt b x = false) as [E1 E2] by (apply in_app_or in Hx as [Hx|[<-|[]]]; auto; split; apply (swo_irrefl lt HW)).
            destruct (comp (proj v) (proj x)) eqn:E; auto. exfalso. assert (lt b x = true) by (eapply (equiv_lt_l v b x); auto). congruence.
          - intros x Hx. apply negb_false_iff. apply (equiv_lt_l b v x); auto. }
      rewrite app_length. simpl length. apply seg_app in SS as [SS1 SS2]. apply seg_cons in SS2 as [Vb SS2].
      apply wp_bind. eapply (rotate_region triv u r2); [apply seg_app; split; [exact SU|rewrite HU; exact SS1]|lia|lia|]. intros m2 T2 O2. apply wp_ret. split; [|lia].
      exists (rest ++ r2), (u ++ [b]), S2. rewrite !app_length. simpl length. cj; auto; try lia.
      * clear - ST HLT. induction ST as [|x l H1 H2 IH]; simpl. { constructor; [intros y []|constructor]. } constructor.
        -- intros y Hy. apply in_app_or in Hy as [Hy|[<-|[]]]; auto. apply HLT; [now left|apply in_elt].
        -- apply IH. intros; apply HLT; auto. now right.
      * intros x y Hx Hy. apply in_app_or in Hx as [Hx|[<-|[]]]; auto. apply HLT; auto. apply in_or_app. right. now right.
      * rewrite app_assoc in OR. eapply sorted_remove; eauto.
      * eapply same_trans; [exact SA|]. rewrite <- !app_assoc. simpl app. apply (same_swap_mid rest u r2 (b :: S2)).
        intros x y Hx Hy. apply HLT; auto. apply in_or_app; auto.
      * rewrite <- !app_assoc. simpl app. apply seg_app. split; [keep O2 SR|]. rewrite app_assoc. apply seg_app. split; [exact T2|]. rewrite app_length.
        apply seg_cons. split; [keep O2 Vb|keep O2 SS2].
      * eapply only_trans; [exact O1|]. eapply only_weaken; [exact O2|win].
    + assert (count = n) as -> by lia. replace (n - n) with 0 in HG1 by lia. inversion HG1; subst. rewrite !app_nil_r in *. apply wp_ret. eapply HQ; eauto. lia.
Qed.

(** ** Putting back *)
Lemma redistribute_right_wp : forall u M a m p (Q : unit -> mem A -> Prop), sorted lt u -> sorted lt M -> seg m a (u ++ M) -> p_range p = (a, a + length u + length M) -> p_count p = length u ->
  (forall m', seg m' a (ssort lt (u ++ M)) -> only (within a (length u + length M)) m m' -> Q tt m') -> wp (redistribute_right comp proj triv p) Q m.
Proof.
  intros u M a m p Q OU OM SM ER EC HQ. unfold redistribute_right, len, start, end_. rewrite ER, EC. simpl fst. simpl snd.
  apply wp_loop' with
    (I := fun '(buffer, unique) m1 => exists O u1 M1, buffer = (a + length O, a + length O + length u1) /\ unique = length u1 * 2 /\ sorted lt u1 /\ sorted lt M1 /\
       seg m1 a (O ++ u1 ++ M1) /\ length O + length u1 + length M1 = length u + length M /\ O ++ ssort lt (u1 ++ M1) = ssort lt (u ++ M) /\ only (within a (length u + length M)) m m1)
    (mu := fun '(buffer, _) => snd buffer - fst buffer).
  - exists [], u, M. simpl. cj; auto; try (f_equal; lia). apply only_refl.
  - simpl. lia.
  - intros [buffer unique] m1 (O & u1 & M1 & -> & -> & OU1 & OM1 & S1 & EL & EQ & O1). simpl fst. simpl snd. replace (a + length O + length u1 - (a + length O)) with (length u1) by lia.
    destruct (Nat.ltb_spec 0 (length u1)) as [H|H].
    + destruct u1 as [|v u1]; [simpl in H; lia|]. simpl length in *. apply sorted_cons in OU1 as [HV OU1]. destruct (split_lower comp proj HW M1 v OM1) as (M2 & M3 & -> & H1 & H2).
      rewrite app_length in EL. apply seg_app in S1 as [SO S1]. pose proof S1 as S1'. apply seg_app in S1 as [SU SM1].
      apply wp_bind. eapply wp_get; [eapply seg_first; exact SU|]. simpl length in *.
      apply wp_bind. eapply (find_first_forward_region comp proj (M2 ++ M3)) with (c := length M2); [have SM1|rewrite app_length; lia|lia| |apply cutp_intro; [exact H1|exact H2]].
      rewrite app_assoc in S1'. apply seg_app in S1' as [S1' SM3]. apply wp_bind. eapply (rotate_region triv (v :: u1) M2); [exact S1'|simpl; lia|lia|]. intros m2 S2 O2. apply wp_ret. split; [|simpl; lia].
      simpl length in O2. exists (O ++ M2 ++ [v]), u1, M3. repeat (rewrite ?app_length; simpl length). cj; auto; try lia.
      * f_equal; lia.
      * now apply (sorted_app_r comp proj) in OM1.
      * replace ((O ++ M2 ++ [v]) ++ u1 ++ M3) with (O ++ (M2 ++ v :: u1) ++ M3) by (rewrite <- !app_assoc; auto). apply seg_app. split; [keep O2 SO|]. apply seg_app. split; auto.
        repeat (rewrite ?app_length in *; simpl length in *). keep O2 SM3.
      * rewrite <- EQ. rewrite <- !app_assoc. f_equal. change ((v :: u1) ++ M2 ++ M3) with (([] ++ (v :: u1)) ++ (M2 ++ M3)). rewrite ssort_split; auto.
        -- change ([] ++ M2) with M2. rewrite (ssort_id lt HW M2) by (now apply (sorted_app_l comp proj) in OM1). f_equal.
           change ((v :: u1) ++ M3) with (v :: (u1 ++ M3)). simpl app. rewrite (ssort_cons_min lt); auto. intros x Hx. apply in_app_or in Hx as [Hx|Hx]; [now apply HV|now apply H2].
        -- simpl app. apply sorted_cons. auto.
        -- intros x y Hx Hy. eapply (lt_le_trans lt HW); [now apply H1|]. destruct Hx as [<-|Hx]; [apply (le_refl lt HW)|now apply HV].
        -- intros x y [].
      * eapply only_trans; [exact O1|]. eapply only_weaken; [exact O2|win].
    + destruct u1; [|simpl in H; lia]. simpl app in *. apply wp_ret. apply HQ; auto. rewrite <- EQ. rewrite (ssort_id lt HW M1); auto.
Qed.

Lemma redistribute_left_wp : forall u M a m p (Q : unit -> mem A -> Prop), sorted lt u -> sorted lt M -> seg m a (M ++ u) -> p_range p = (a, a + length M + length u) -> p_count p = length u ->
  (forall m', seg m' a (ssort lt (M ++ u)) -> only (within a (length M + length u)) m m' -> Q tt m') -> wp (redistribute_left comp proj triv p) Q m.
Proof.
  intros u M a m p Q OU OM SM ER EC HQ. unfold redistribute_left, len, start, end_. rewrite ER, EC. simpl fst. simpl snd.
  apply wp_loop' with
    (I := fun '(buffer, unique) m1 => exists O u1 M1, buffer = (a + length M1, a + length M1 + length u1) /\ unique = length u1 * 2 /\ sorted lt u1 /\ sorted lt M1 /\
       seg m1 a (M1 ++ u1 ++ O) /\ length O + length u1 + length M1 = length u + length M /\ ssort lt (M1 ++ u1) ++ O = ssort lt (M ++ u) /\ only (within a (length M + length u)) m m1)
    (mu := fun '(buffer, _) => snd buffer - fst buffer).
  - exists [], u, M. simpl. rewrite !app_nil_r. cj; auto; try lia; try (f_equal; lia). apply only_refl.
  - simpl. lia.
  - intros [buffer unique] m1 (O & u1 & M1 & -> & -> & OU1 & OM1 & S1 & EL & EQ & O1). simpl fst. simpl snd. replace (a + length M1 + length u1 - (a + length M1)) with (length u1) by lia.
    destruct (Nat.ltb_spec 0 (length u1)) as [H|H].
    + destruct (last_split _ u1) as (u2 & v & ->); [intros ->; simpl in H; lia|]. destruct (split_upper comp proj HW M1 v OM1) as (M2 & M3 & -> & H1 & H2).
      pose proof OU1 as OU1'. apply sorted_app in OU1 as (OU2 & _ & HV). assert (length (M2 ++ M3) = length M2 + length M3) as E1 by apply app_length. assert (length (u2 ++ [v]) = length u2 + 1) as E2 by (rewrite app_length; auto).
      pose proof S1 as S1'. apply seg_app in S1 as [SM1 S1]. apply seg_app in S1 as [SU SO].
      apply wp_bind. eapply wp_get; [apply seg_last in SU; have SU|].
      apply wp_bind. eapply (find_last_backward_region comp proj (M2 ++ M3)) with (c := length M2); [exact SM1|auto|lia| |].
      2:{ apply cutp_intro; intros x Hx; [apply negb_true_iff; now apply H1|apply negb_false_iff; now apply H2]. }
      rewrite <- app_assoc in S1'. apply seg_app in S1' as [SM2 S1']. rewrite app_assoc in S1'. apply seg_app in S1' as [S1' SO']. rewrite app_length in SO'.
      apply wp_bind. eapply (rotate_region triv M3 (u2 ++ [v])); [exact S1'|lia|lia|]. intros m2 S2 O2. apply wp_ret. split; [|simpl; lia].
      exists ([v] ++ M3 ++ O), u2, M2. rewrite !(app_length [v]), (app_length M3). simpl length. cj; auto; try lia.
      * f_equal; lia.
      * now apply (sorted_app_l comp proj) in OM1.
      * replace (M2 ++ u2 ++ [v] ++ M3 ++ O) with (M2 ++ ((u2 ++ [v]) ++ M3) ++ O) by (rewrite <- !app_assoc; auto). apply seg_app. split; [keep O2 SM2|]. apply seg_app. split; auto.
        rewrite app_length. keep O2 SO'.
      * rewrite <- EQ. replace (ssort lt (M2 ++ u2) ++ [v] ++ M3 ++ O) with ((ssort lt (M2 ++ u2) ++ [v] ++ M3) ++ O) by (now rewrite <- !app_assoc). f_equal.
        replace ((M2 ++ M3) ++ u2 ++ [v]) with ((M2 ++ M3) ++ (u2 ++ [v]) ++ []) by now rewrite app_nil_r. rewrite ssort_split; auto.
        -- rewrite app_nil_r. rewrite (ssort_id lt HW M3) by (now apply (sorted_app_r comp proj) in OM1). rewrite app_assoc. f_equal.
           rewrite app_assoc. rewrite (ssort_app_max lt HW); auto. intros x Hx. apply in_app_or in Hx as [Hx|Hx]; [now apply H1|apply HV; auto; now left].
        -- now rewrite app_nil_r.
        -- intros x y Hx Hy. eapply (le_lt_trans lt HW); [|now apply H2]. apply in_app_or in Hy as [Hy|[<-|[]]]; [apply HV; auto; now left|apply (le_refl lt HW)].
        -- intros x y _ [].
      * eapply only_trans; [exact O1|]. eapply only_weaken; [exact O2|win].
    + destruct u1; [|simpl in H; lia]. rewrite ?app_nil_r in *. simpl app in *. apply wp_ret. apply HQ; auto. rewrite <- EQ. rewrite (ssort_id lt HW M1); auto.
Qed.
End Pull.
