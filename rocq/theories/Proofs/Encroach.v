(** Encroaching lists: collections of linked lists in a pool, and their construction. *)
From Coq Require Import List Arith Lia Permutation Bool.
From Verif Require Import Spec.Order Lang.Mem Proofs.Wp Proofs.OrderLib Model.Indirect Proofs.Indirect Model.Select Proofs.Select Model.FixedList Model.Mel
  Proofs.FixedList Proofs.ListPath Proofs.ListMerge.
Import ListNotations.
Local Arguments nth_error : simpl never.
Local Arguments upd : simpl never.
Local Arguments Nat.mul : simpl never.
Local Arguments Nat.div : simpl never.

Section Coll.
Context {A V : Type}.
Implicit Types (p : node_pool V) (L : list (list nat)) (lists fs : list nat).

(** The lists of sentinels [lists] have the nodes [L], and the nodes [fs] are free. *)
Definition coll p lists L fs : Prop :=
  Forall2 (chain (nodes p)) lists L /\ freelist (nodes p) (first_free p) fs /\ NoDup (lists ++ concat L ++ fs).

Lemma chains_frame : forall (ns ns' : list (list_node V)) lists L, Forall2 (chain ns) lists L -> length ns <= length ns' ->
  (forall j, In j (lists ++ concat L) -> nxt ns' j = nxt ns j /\ prv ns' j = prv ns j) -> Forall2 (chain ns') lists L.
Proof.
  intros ns ns' lists L H HL. induction H as [|s ids lists L HC H IH]; intros HF; constructor.
  - eapply chain_frame; eauto. intros x Hx. apply HF. simpl. rewrite !in_app_iff. destruct Hx; auto.
  - apply IH. intros j Hj. apply HF. apply in_app_or in Hj. simpl. rewrite !in_app_iff. tauto.
Qed.

Lemma chains_bound : forall (ns : list (list_node V)) lists L, Forall2 (chain ns) lists L -> forall j, In j (lists ++ concat L) -> j < length ns.
Proof.
  intros ns lists L H. induction H as [|s ids lists L HC H IH]; intros j Hj; [destruct Hj|].
  destruct HC as (_ & HB & _). simpl in Hj. rewrite !in_app_iff in Hj. destruct Hj as [->|[Hj|[Hj|Hj]]].
  - apply HB. now left. - apply IH. apply in_or_app; auto. - apply HB. now right. - apply IH. apply in_or_app; auto.
Qed.

Lemma Forall2_len : forall X Y (R : X -> Y -> Prop) l l', Forall2 R l l' -> length l = length l'.
Proof. intros X Y R l l' H. induction H; simpl; congruence. Qed.

Lemma app_inj_1 : forall X (a b c d : list X), a ++ b = c ++ d -> length a = length c -> a = c /\ b = d.
Proof.
  intros X. induction a as [|x a IH]; intros b [|y c] d E HL; simpl in *; try discriminate; auto.
  injection E as -> E. destruct (IH _ _ _ E) as [-> ->]; auto.
Qed.

Lemma Forall2_at : forall X Y (R : X -> Y -> Prop) (l : list X) (L1 : list Y) b (L2 : list Y), Forall2 R l (L1 ++ b :: L2) ->
  exists l1 a l2, l = l1 ++ a :: l2 /\ length l1 = length L1 /\ R a b /\ Forall2 R l1 L1 /\ Forall2 R l2 L2.
Proof.
  intros X Y R l L1 b L2 H. apply Forall2_app_inv_r in H as (l1 & l2 & H1 & H2 & ->). inversion H2; subst.
  exists l1, x, l. cj; auto. eapply Forall2_len; eauto.
Qed.

Lemma nth_mid : forall X (l1 : list X) a l2 n, n = length l1 -> nth_error (l1 ++ a :: l2) n = Some a.
Proof. intros X l1 a l2 n ->. rewrite nth_error_app2, Nat.sub_diag by lia. reflexivity. Qed.

Lemma list_back_wp : forall p s ids x w (Q : V -> mem A -> Prop) m, chain (nodes p) s (ids ++ [x]) -> vl (nodes p) x = Val w -> Q w m -> wp (list_back p s) Q m.
Proof.
  intros p s ids x w Q m HC HV HQ. unfold list_back. pose proof (chain_prev_end _ _ _ HC) as HP. rewrite lst_or_app in HP.
  apply wp_bind. apply rd_node. { apply HC. now left. } intros n _ En _. apply wp_bind. eapply wp_pointee. { rewrite En. exact HP. } eapply wp_list_deref; eauto.
Qed.
Lemma list_front_wp : forall p s ids x w (Q : V -> mem A -> Prop) m, chain (nodes p) s (x :: ids) -> vl (nodes p) x = Val w -> Q w m -> wp (list_front p s) Q m.
Proof.
  intros p s ids x w Q m HC HV HQ. unfold list_front. pose proof (chain_begin _ _ _ HC) as HP.
  apply wp_bind. apply rd_node. { apply HC. now left. } intros n En _ _. apply wp_bind. eapply wp_pointee. { rewrite En. exact HP. } eapply wp_list_deref; eauto.
Qed.

(** An insertion in one of the lists. *)
Lemma coll_insert : forall p l1 s l2 L1 a b L2 x fs pos w (Q : nat * node_pool V -> mem A -> Prop) m,
  coll p (l1 ++ s :: l2) (L1 ++ (a ++ b) :: L2) (x :: fs) -> length l1 = length L1 -> pos = fst_or s b ->
  (forall p', coll p' (l1 ++ s :: l2) (L1 ++ (a ++ x :: b) :: L2) fs -> length (nodes p') = length (nodes p) -> capacity p' = capacity p ->
     (forall j, vl (nodes p') j = if j =? x then Val w else vl (nodes p) j) -> Q (x, p') m) ->
  wp (insert_node p pos w) Q m.
Proof.
  intros p l1 s l2 L1 a b L2 x fs pos w Q m (HC & HF & ND) HL Hp HQ.
  assert (HC' := HC). apply Forall2_at in HC' as (l1' & s' & l2' & E & HL' & HCs & H1 & H2).
  apply app_inj_1 in E as [<- E]; [|lia]. injection E as <- <-.
  eapply insert_node_wp with (l1 := a) (l2 := b) (fs := fs); eauto.
  { apply NoDup_cnt. intros j. nodup ND j. }
  intros p' E1 E2 E3 E4 E5 E6. apply HQ; auto. split; [|split; auto].
  - apply Forall2_app; [|constructor; auto]; (eapply chains_frame; [eassumption|lia|]); intros j Hj; apply E6; intros Hi; apply in_app_or in Hj as [Hj|Hj]; nodup ND j.
  - apply NoDup_cnt. intros j. nodup ND j.
Qed.

(** A new list of one node. *)
Lemma coll_new : forall p lists L x fs w (Q : nat * node_pool V -> mem A -> Prop) m s p1, coll p lists L (x :: fs) -> new_list p = (s, p1) ->
  (forall p', coll p' (lists ++ [s]) (L ++ [[x]]) fs -> length (nodes p') = S (length (nodes p)) -> capacity p' = capacity p ->
     (forall j, j < length (nodes p) -> vl (nodes p') j = if j =? x then Val w else vl (nodes p) j) -> Q (x, p') m) ->
  wp (insert_node p1 s w) Q m.
Proof.
  intros p lists L x fs w Q m s p1 (HC & HF & ND) EN HQ. destruct (new_list_chain _ _ _ EN) as (Es & C1 & LN & F1 & CP & FR).
  assert (HFB : forall (f : option nat) l (ns : list (list_node V)), freelist ns f l -> forall j, In j l -> j < length ns).
  { clear. intros f l ns. revert f. induction l as [|y l IH]; simpl; intros f H j Hj; [tauto|]. destruct H as (_ & H1 & _ & H2). destruct Hj as [->|Hj]; eauto. }
  assert (HB := chains_bound _ _ _ HC). assert (HB2 := HFB _ _ _ HF).
  assert (HS : forall j, In j (lists ++ concat L ++ x :: fs) -> j < s). { intros j Hj. rewrite Es. rewrite app_assoc in Hj. apply in_app_or in Hj as [Hj|Hj]; auto. }
  assert (NDS : NoDup (s :: lists ++ concat L ++ x :: fs)). { constructor; auto. intros Hi. apply HS in Hi. lia. }
  eapply coll_insert with (l1 := lists) (l2 := []) (L1 := L) (a := []) (b := []) (L2 := []) (fs := fs); auto.
  - split; [|split].
    + apply Forall2_app; [|constructor; [exact C1|constructor]]. eapply chains_frame; [exact HC|lia|]. intros j Hj. destruct (FR j) as (-> & -> & _); auto. rewrite Es. auto.
    + rewrite F1. eapply freelist_frame; [exact HF|lia|]. intros j Hj. destruct (FR j) as (-> & _ & ->); auto. rewrite Es. auto.
    + apply NoDup_cnt. intros j. nodup NDS j.
  - eapply Forall2_len; eauto.
  - reflexivity.
  - intros p' E1 E2 E3 E4. apply HQ; auto; try lia.
    intros j Hj. rewrite E4. destruct (j =? x); auto. apply FR. lia.
Qed.
End Coll.

(** * The construction of the lists *)
Section Build.
Context {A T : Type} (comp : T -> T -> bool) (proj : A -> T).
Local Notation lt := (by_proj comp proj).
Hypothesis HW : strict_weak_order lt.

Definition head_of (v : nat -> A) (l : list nat) : A := v (hd 0 l).
Definition back_of (v : nat -> A) (l : list nat) : A := v (last l 0).

Definition enc (v : nat -> A) (L : list (list nat)) : Prop :=
  Forall (fun l => l <> []) L /\ Forall (fun l => sorted lt (map v l)) L /\ sorted lt (map (head_of v) L) /\ sorted (fun x y => lt y x) (map (back_of v) L) /\
  Forall (fun l => 2 <= length l) (removelast L).

Context {V : Type} (elem : V -> M A A) (make : nat -> M A V) (holds : mem A -> V -> A -> Prop) (after : mem A -> nat -> mem A) (made : nat -> V -> Prop).
Hypothesis elem_wp : forall m w y (Q : A -> mem A -> Prop), holds m w y -> Q y m -> wp (elem w) Q m.
Hypothesis make_wp : forall m it y (Q : V -> mem A -> Prop), nth_error m it = Some (Val y) -> (forall w, holds (after m it) w y -> made it w -> Q w (after m it)) -> wp (make it) Q m.
Hypothesis holds_after : forall m it w y, holds m w y -> holds (after m it) w y.

Lemma lists_lower_bound_wp : forall (cmp : T -> T -> bool) (key : nat -> M A V) lists last value (k : nat -> A) (Q : nat -> mem A -> Prop) m,
  (forall i, i < last -> exists s w, nth_error lists i = Some s /\ (forall Q : V -> mem A -> Prop, Q w m -> wp (key s) Q m) /\ holds m w (k i)) ->
  (forall i, i <= last -> (0 < i -> cmp (proj (k (i - 1))) value = true) -> (i < last -> cmp (proj (k i)) value = false) -> Q i m) ->
  wp (lists_lower_bound proj elem cmp key lists last value) Q m.
Proof.
  intros cmp key lists last value k Q m HK HQ. unfold lists_lower_bound.
  apply wp_loop_k with (k := last) (I := fun n '(first, size) m' => m' = m /\ n = size /\ first + size <= last /\ (0 < first -> cmp (proj (k (first - 1))) value = true) /\
    (first + size < last -> cmp (proj (k (first + size))) value = false)).
  - cj; auto; lia.
  - lia.
  - intros n [first size] m' (-> & -> & HB & H1 & H2). destruct (Nat.ltb_spec 0 size) as [Hs|Hs].
    + assert (size / 2 < size) by (apply Nat.div_lt; lia). destruct (HK (first + size / 2)) as (s & w & E1 & E2 & E3); [lia|].
      apply wp_bind. eapply wp_rd; eauto. apply wp_bind. apply E2. apply wp_bind. eapply elem_wp; eauto.
      destruct (cmp (proj (k (first + size / 2))) value) eqn:EC; apply wp_ret.
      * exists (size - (size / 2 + 1)). split; [lia|]. cj; auto; try lia.
        -- intros _. replace (S (first + size / 2) - 1) with (first + size / 2) by lia. exact EC.
        -- intros Hl. replace (S (first + size / 2) + (size - (size / 2 + 1))) with (first + size) in * by lia. auto.
      * exists (size / 2). split; [lia|]. cj; auto; lia.
    + apply wp_ret. replace size with 0 in * by lia. rewrite Nat.add_0_r in *. apply HQ; auto; lia.
Qed.

Lemma last_cons_app : forall (l : list nat) x d, last (l ++ [x]) d = x.
Proof. intros. apply last_last. Qed.

Lemma hd_app : forall (l : list nat) r d, l <> [] -> hd d (l ++ r) = hd d l.
Proof. intros [|x l] r d H; [congruence|reflexivity]. Qed.

Lemma map_ext_in' : forall (f g : nat -> A) l, (forall x, In x l -> f x = g x) -> map f l = map g l.
Proof. intros. now apply map_ext_in. Qed.

Lemma enc_ext : forall v v' L, (forall x, In x (concat L) -> v' x = v x) -> enc v L -> enc v' L.
Proof.
  intros v v' L HE (E1 & E2 & E3 & E4 & E5). rewrite Forall_forall in E1, E2.
  assert (HI : forall l x, In l L -> In x l -> v' x = v x). { intros l x Hl Hx. apply HE. apply in_concat. eauto. }
  split; [rewrite Forall_forall; auto|]. split; [|split; [|split]]; auto.
  - apply Forall_forall. intros l Hl. rewrite (map_ext_in' v' v); eauto.
  - rewrite (map_ext_in (head_of v') (head_of v)); auto. intros l Hl. unfold head_of. apply (HI l); auto. specialize (E1 l Hl). destruct l; [congruence|now left].
  - rewrite (map_ext_in (back_of v') (back_of v)); auto. intros l Hl. unfold back_of. apply (HI l); auto. apply last_in. auto.
Qed.

Lemma sorted_nth : forall X (r : X -> X -> bool) l i j x y, sorted r l -> i < j -> nth_error l i = Some x -> nth_error l j = Some y -> r y x = false.
Proof. intros X r l i j x y H. apply H. Qed.

(** [value] replaces the [i]-th element of a sorted list. *)
Lemma sorted_replace : forall (r : A -> A -> bool) l1 x y l2, sorted r (l1 ++ x :: l2) -> (forall z, In z l1 -> r y z = false) -> (forall z, In z l2 -> r z y = false) ->
  sorted r (l1 ++ y :: l2).
Proof.
  intros r l1 x y l2 H H1 H2. apply sorted_app in H as (S1 & S2 & S3). apply sorted_cons in S2 as [S2 S4]. apply sorted_app. cj; auto.
  - apply sorted_cons. split; auto.
  - intros a b Ha [<-|Hb]. + apply H1; auto. + apply S3; auto. now right.
Qed.

Lemma enc_push_back : forall v L1 l L2 x, enc v (L1 ++ l :: L2) -> (forall l', In l' L1 -> lt (v x) (back_of v l') = true) -> le lt (back_of v l) (v x) ->
  enc v (L1 ++ (l ++ [x]) :: L2).
Proof.
  intros v L1 l L2 x (E1 & E2 & E3 & E4 & E5) HP HB.
  assert (Hl : l <> []). { rewrite Forall_forall in E1. apply E1. apply in_or_app. right. now left. }
  split; [|split; [|split; [|split]]].
  - apply Forall_app in E1 as [F1 F2]. apply Forall_cons_iff in F2 as [F2 F3]. apply Forall_app. split; auto. constructor; auto. destruct l; discriminate.
  - apply Forall_app in E2 as [F1 F2]. apply Forall_cons_iff in F2 as [F2 F3]. apply Forall_app. split; auto. constructor; auto. rewrite map_app. apply sorted_app. cj; auto; [apply sorted_one|].
    intros a b Ha [<-|[]]. assert (le lt a (back_of v l)) as Hle.
    { unfold back_of. rewrite (app_removelast_last 0 Hl) in F2, Ha. rewrite map_app in F2, Ha. apply sorted_app in F2 as (_ & _ & F2). apply in_app_or in Ha as [Ha|[<-|[]]].
      - apply F2; auto. now left. - apply le_refl; auto. }
    red. eapply le_trans; eauto.
  - rewrite map_app in *. cbn [map] in *. replace (head_of v (l ++ [x])) with (head_of v l); auto. unfold head_of. rewrite hd_app; auto.
  - rewrite map_app in *. cbn [map] in *. eapply sorted_replace; [exact E4| |].
    + intros z Hz. apply in_map_iff in Hz as (l' & <- & Hl'). unfold back_of at 2. rewrite last_cons_app. apply lt_asym; auto.
    + intros z Hz. unfold back_of. rewrite last_cons_app. apply sorted_app in E4 as (_ & E4 & _). apply sorted_cons in E4 as [E4 _]. specialize (E4 z Hz). cbv beta in *.
      change (le lt z (v x)). eapply le_trans; [auto| |exact HB]. exact E4.
  - destruct L2 as [|l2 L2].
    + rewrite removelast_last in *. exact E5.
    + rewrite removelast_app in * by discriminate. apply Forall_app in E5 as [F1 F2]. apply Forall_app. split; auto.
      change (removelast (?a :: l2 :: L2)) with (a :: removelast (l2 :: L2)) in *. apply Forall_cons_iff in F2 as [F2 F3]. constructor; auto. rewrite app_length. simpl. lia.
Qed.

Lemma enc_push_front : forall v L1 l L2 x, enc v (L1 ++ l :: L2) -> (forall l', In l' L1 -> lt (head_of v l') (v x) = true) -> le lt (v x) (head_of v l) ->
  enc v (L1 ++ (x :: l) :: L2).
Proof.
  intros v L1 l L2 x (E1 & E2 & E3 & E4 & E5) HP HB.
  assert (Hl : l <> []). { rewrite Forall_forall in E1. apply E1. apply in_or_app. right. now left. }
  split; [|split; [|split; [|split]]].
  - apply Forall_app in E1 as [F1 F2]. apply Forall_cons_iff in F2 as [F2 F3]. apply Forall_app. split; auto. constructor; auto. discriminate.
  - apply Forall_app in E2 as [F1 F2]. apply Forall_cons_iff in F2 as [F2 F3]. apply Forall_app. split; auto. constructor; auto. cbn [map]. apply sorted_cons. split; auto.
    intros b Hb. change (le lt (v x) b). eapply le_trans; eauto. destruct l as [|y l]; [congruence|]. unfold head_of. cbn [hd map] in *. destruct Hb as [<-|Hb]; [apply le_refl; auto|].
    apply sorted_cons in F2 as [F2 _]. apply F2; auto.
  - rewrite map_app in *. cbn [map] in *. eapply sorted_replace; [exact E3| |].
    + intros z Hz. apply in_map_iff in Hz as (l' & <- & Hl'). unfold head_of at 1. cbn [hd]. apply lt_asym; auto.
    + intros z Hz. unfold head_of. cbn [hd]. apply sorted_app in E3 as (_ & E3 & _). apply sorted_cons in E3 as [E3 _]. specialize (E3 z Hz). cbv beta in *.
      change (le lt (v x) z). eapply le_trans; eauto.
  - rewrite map_app in *. cbn [map] in *. replace (back_of v (x :: l)) with (back_of v l); auto. unfold back_of. destruct l; [congruence|reflexivity].
  - destruct L2 as [|l2 L2].
    + rewrite removelast_last in *. exact E5.
    + rewrite removelast_app in * by discriminate. apply Forall_app in E5 as [F1 F2]. apply Forall_app. split; auto.
      change (removelast (?a :: l2 :: L2)) with (a :: removelast (l2 :: L2)) in *. apply Forall_cons_iff in F2 as [F2 F3]. constructor; auto. simpl. lia.
Qed.

Lemma enc_new : forall v L l x, enc v (L ++ [l]) -> lt (v x) (back_of v l) = true -> lt (head_of v l) (v x) = true -> enc v ((L ++ [l]) ++ [[x]]).
Proof.
  intros v L l x (E1 & E2 & E3 & E4 & E5) HB HH.
  split; [|split; [|split; [|split]]].
  - apply Forall_app. split; auto. constructor; auto. discriminate.
  - apply Forall_app. split; auto. constructor; auto. apply sorted_one.
  - rewrite map_app. apply sorted_app. cj; auto; [apply sorted_one|]. intros a b Ha [<-|[]]. unfold head_of at 1. cbn [hd]. apply lt_asym; auto.
    rewrite map_app in *. cbn [map] in *. apply in_app_or in Ha as [Ha|[<-|[]]]; auto. apply sorted_app in E3 as (_ & _ & E3).
    eapply le_lt_trans; eauto. apply E3; auto. now left.
  - rewrite map_app. apply sorted_app. cj; auto; [apply sorted_one|]. intros a b Ha [<-|[]]. unfold back_of at 1. cbn [last]. change (lt a (v x) = false). apply (lt_asym lt); auto.
    rewrite map_app in *. cbn [map] in *. apply in_app_or in Ha as [Ha|[<-|[]]]; auto. apply sorted_app in E4 as (_ & _ & E4).
    eapply (lt_le_trans lt HW); [exact HB|]. apply (E4 a (back_of v l)); auto. now left.
  - rewrite removelast_last in *. apply Forall_app. split; auto. constructor; auto. rewrite Forall_forall in E1.
    assert (l <> []) as E6 by (apply E1; apply in_or_app; right; now left). destruct l as [|a [|b l]]; [congruence| |simpl; lia]. exfalso.
    unfold head_of, back_of in *. cbn [hd last] in *. rewrite (lt_asym lt HW _ _ HH) in HB. discriminate.
Qed.

Definition held m ns (v : nat -> A) (x : nat) : Prop := exists w, vl ns x = Val w /\ holds m w (v x).

Lemma enc_at : forall v L1 l L2, enc v (L1 ++ l :: L2) -> l <> [].
Proof. intros v L1 l L2 (E1 & _). rewrite Forall_forall in E1. apply E1. apply in_or_app. right. now left. Qed.

Lemma add_to_lists_wp : forall (p : node_pool V) lists L x fs v it y (Q : list nat * node_pool V -> mem A -> Prop) m,
  coll p lists L (x :: fs) -> L <> [] -> enc v L -> (forall j, In j (concat L) -> held m (nodes p) v j) -> nth_error m it = Some (Val y) ->
  (forall p' lists' L', coll p' lists' L' fs -> L' <> [] -> enc (fun j => if j =? x then y else v j) L' -> Permutation (concat L') (x :: concat L) ->
     length lists <= length lists' <= S (length lists) ->
     (forall j, In j (concat L') -> held (after m it) (nodes p') (fun j => if j =? x then y else v j) j) -> capacity p' = capacity p ->
     length (nodes p) <= length (nodes p') -> (exists w, made it w /\ forall j, j < length (nodes p) -> vl (nodes p') j = if j =? x then Val w else vl (nodes p) j) ->
     Q (lists', p') (after m it)) ->
  wp (add_to_lists comp proj elem make p lists it) Q m.
Proof.
  intros p lists L x fs v it y Q m HCO HL HE HV Hit HQ. unfold add_to_lists. apply wp_bind. eapply wp_get; eauto.
  destruct (exists_last HL) as (L0 & l & ->).
  assert (HCO' := HCO). destruct HCO' as (HC & HF & ND). assert (HC' := HC). apply Forall2_at in HC' as (l0 & s & l0' & EL & HL0 & HCs & H1 & H2). inversion H2; subst l0'. clear H2.
  assert (Hlen : length lists = S (length L0)). { rewrite EL, app_length. simpl. lia. }
  assert (HLN : forall i, i < length lists -> exists s ids, nth_error lists i = Some s /\ nth_error (L0 ++ [l]) i = Some ids /\ chain (nodes p) s ids /\ ids <> []).
  { intros i Hi. assert (i < length (L0 ++ [l])) as Hi'. { rewrite app_length. simpl. lia. }
    destruct (nth_some _ _ _ Hi') as (ids & Ei). destruct (nth_some _ _ _ Hi) as (si & Es). exists si, ids. cj; auto.
    - apply nth_error_split in Ei as (La & Lb & E & Hla). rewrite E in HC. apply Forall2_at in HC as (la & sa & lb & E' & Hl & HCa & _ & _). rewrite E' in Es. rewrite nth_mid in Es by lia. injection Es as <-. exact HCa.
    - apply nth_error_split in Ei as (La & Lb & E & Hla). rewrite E in HE. eapply enc_at; eauto. }
  assert (HLl : l <> []) by (eapply enc_at; eauto).
  set (v' := fun j => if j =? x then y else v j).
  assert (HVE : forall j, In j (concat (L0 ++ [l])) -> v' j = v j). { intros j Hj. unfold v'. destruct (Nat.eqb_spec j x) as [->|]; auto. nodup ND x. }
  assert (HE' := enc_ext _ v' _ HVE HE).
  assert (Hvx : v' x = y) by (unfold v'; now rewrite Nat.eqb_refl).
  assert (Hback : forall ids, In ids (L0 ++ [l]) -> ids <> [] -> back_of v' ids = back_of v ids). { intros ids Hi Hn. apply HVE. apply in_concat. exists ids. split; auto. apply last_in; auto. }
  assert (Hhead : forall ids, In ids (L0 ++ [l]) -> ids <> [] -> head_of v' ids = head_of v ids). { intros ids Hi Hn. apply HVE. apply in_concat. exists ids. split; auto. destruct ids; [congruence|now left]. }
  assert (HLI : In l (L0 ++ [l])) by (apply in_or_app; right; now left).
  assert (HHB : forall ids, In ids (L0 ++ [l]) -> ids <> [] -> held m (nodes p) v (last ids 0)). { intros ids Hi Hn. apply HV. apply in_concat. exists ids. split; auto. apply last_in; auto. }
  assert (HHF : forall ids, In ids (L0 ++ [l]) -> ids <> [] -> held m (nodes p) v (hd 0 ids)). { intros ids Hi Hn. apply HV. apply in_concat. exists ids. split; auto. destruct ids; [congruence|now left]. }
  apply wp_bind. eapply wp_rd. { rewrite EL. apply nth_mid. rewrite app_length. simpl. lia. }
  destruct (HHB l HLI HLl) as (wb & VB & OB).
  apply wp_bind. eapply list_back_wp with (ids := removelast l); [rewrite <- app_removelast_last; [exact HCs|exact HLl]|exact VB|].
  apply wp_bind. eapply elem_wp; eauto.
  assert (HHELD : forall (p' : node_pool V) w L', (forall j, j < length (nodes p) -> vl (nodes p') j = if j =? x then Val w else vl (nodes p) j) -> holds (after m it) w y ->
     Permutation (concat L') (x :: concat (L0 ++ [l])) -> forall j, In j (concat L') -> held (after m it) (nodes p') v' j).
  { intros p' w L' EV Hw HP j Hj. apply (Permutation_in _ HP) in Hj. unfold held, v'.
    assert (j < length (nodes p)) as Hjl. { destruct Hj as [<-|Hj]; [destruct HF as (_ & HFx & _); exact HFx|]. eapply chains_bound; [exact HC|]. apply in_or_app. auto. }
    rewrite EV by auto. destruct (Nat.eqb_spec j x) as [->|Hjx].
    - exists w. auto.
    - destruct Hj as [->|Hj]; [congruence|]. destruct (HV j Hj) as (w' & Ew & Hw'). exists w'. split; auto. }
  destruct (comp (proj y) (proj (v (last l 0)))) eqn:EB; cbn [negb].
  2:{ (* at the end of a list *)
    apply wp_bind. eapply lists_lower_bound_wp with (k := fun i => back_of v (nth i (L0 ++ [l]) [])).
    { intros i Hi. destruct (HLN i) as (si & ids & Es & Ei & HCi & Hn); [lia|]. assert (In ids (L0 ++ [l])) as HI by (eapply nth_error_In; eauto).
      destruct (HHB ids HI Hn) as (w & Vw & Ow). exists si, w. cj; auto.
      - intros Q' HQ'. eapply list_back_wp with (ids := removelast ids); [rewrite <- app_removelast_last; [exact HCi|exact Hn]|exact Vw|exact HQ'].
      - erewrite nth_error_nth by exact Ei. exact Ow. }
    intros i Hi G1 G2. destruct (HLN i) as (si & ids & Es & Ei & HCi & Hn); [lia|]. apply wp_bind. eapply wp_rd; eauto.
    apply wp_bind. eapply make_wp; eauto. intros w Hw Hmw. apply wp_bind. unfold push_back. apply wp_bind.
    assert (Ei' := Ei). apply nth_error_split in Ei' as (La & Lb & ELa & Hla). rewrite ELa in *.
    assert (HC' := HC). apply Forall2_at in HC' as (la & sa & lb & E' & Hl & HCa & _ & _). rewrite E' in Es. rewrite nth_mid in Es by lia. injection Es as ->.
    rewrite E'. eapply coll_insert with (l1 := la) (l2 := lb) (a := ids) (b := []) (L1 := La) (L2 := Lb); [rewrite app_nil_r, <- E'; exact HCO|exact Hl|reflexivity|].
    intros p' K1 K2 K3 K4. apply wp_ret, wp_ret. rewrite <- E' in *.
    assert (HPM : Permutation (concat (La ++ (ids ++ [x]) :: Lb)) (x :: concat (La ++ ids :: Lb))).
    { rewrite !concat_app. cbn [concat]. rewrite <- !app_assoc. rewrite (app_assoc (concat La) ids), (app_assoc (concat La) ids). symmetry. apply Permutation_middle. }
    apply HQ with (L' := La ++ (ids ++ [x]) :: Lb); auto; try lia.
    - destruct La; discriminate.
    - change (enc v' (La ++ (ids ++ [x]) :: Lb)). apply enc_push_back; auto.
      + intros l' Hl'. rewrite Hvx. apply In_nth with (d := []) in Hl' as (j & Hj & Ej). subst l'.
        assert (0 < i) as Hi0 by lia. specialize (G1 Hi0). unfold flip_comp in G1.
        assert (Hnj : forall k, k < length La -> nth k (La ++ ids :: Lb) [] = nth k La []). { intros k Hk. now rewrite app_nth1. }
        assert (Hin : forall k, k < length La -> In (nth k La []) (La ++ ids :: Lb)). { intros k Hk. apply in_or_app. left. now apply nth_In. }
        assert (Hne : forall k, k < length La -> nth k La [] <> []). { intros k Hk. destruct HE as (E1 & _). rewrite Forall_forall in E1. apply E1. auto. }
        rewrite Hback by auto. rewrite Hnj in G1 by lia. change (lt y (back_of v (nth (i - 1) La [])) = true) in G1.
        destruct (Nat.eq_dec j (i - 1)) as [->|Hji]; auto. eapply lt_le_trans; [auto|exact G1|].
        destruct HE as (_ & _ & _ & E4 & _). rewrite map_app in E4. apply sorted_app in E4 as (E4 & _).
        refine (sorted_nth _ (fun x y => lt y x) _ j (i - 1) _ _ E4 _ _ _); [lia| |]; apply map_nth_error; apply nth_error_nth'; lia.
      + rewrite Hback by (auto; apply in_or_app; right; now left). rewrite Hvx. destruct (Nat.eq_dec i (length L0)) as [->|Hne].
        * assert (ids = l) as ->. { assert (nth_error (La ++ ids :: Lb) (length L0) = Some l) as Ell by (rewrite <- ELa; apply nth_mid; auto). congruence. } exact EB.
        * specialize (G2 ltac:(lia)). erewrite nth_error_nth in G2 by exact Ei. exact G2.
    - intros j Hj. eapply HHELD; eauto.
    - exists w. auto. }
  (* at the beginning of a list, or in a new list *)
  destruct (HHF l HLI HLl) as (wf & VF & OF).
  apply wp_bind. eapply list_front_wp with (ids := tl l) (x := hd 0 l); [destruct l; [congruence|exact HCs]|exact VF|].
  apply wp_bind. eapply elem_wp; eauto.
  destruct (comp (proj (v (hd 0 l))) (proj y)) eqn:EF; cbn [negb].
  2:{ apply wp_bind. eapply lists_lower_bound_wp with (k := fun i => head_of v (nth i (L0 ++ [l]) [])).
    { intros i Hi. destruct (HLN i) as (si & ids & Es & Ei & HCi & Hn); [lia|]. assert (In ids (L0 ++ [l])) as HI by (eapply nth_error_In; eauto).
      destruct (HHF ids HI Hn) as (w & Vw & Ow). exists si, w. cj; auto.
      - intros Q' HQ'. eapply list_front_wp with (ids := tl ids) (x := hd 0 ids); [destruct ids; [congruence|exact HCi]|exact Vw|exact HQ'].
      - erewrite nth_error_nth by exact Ei. exact Ow. }
    intros i Hi G1 G2. destruct (HLN i) as (si & ids & Es & Ei & HCi & Hn); [lia|]. apply wp_bind. eapply wp_rd; eauto.
    apply wp_bind. eapply make_wp; eauto. intros w Hw Hmw. apply wp_bind. unfold push_front.
    assert (Ei' := Ei). apply nth_error_split in Ei' as (La & Lb & ELa & Hla). rewrite ELa in *.
    assert (HC' := HC). apply Forall2_at in HC' as (la & sa & lb & E' & Hl & HCa & _ & _). rewrite E' in Es. rewrite nth_mid in Es by lia. injection Es as ->.
    apply wp_bind. apply rd_node. { apply HCi. now left. } intros n En _ _. apply wp_bind. eapply wp_pointee. { rewrite En. apply (chain_begin _ _ _ HCi). }
    apply wp_bind. rewrite E'. eapply coll_insert with (l1 := la) (l2 := lb) (a := []) (b := ids) (L1 := La) (L2 := Lb); [rewrite <- E'; exact HCO|exact Hl|reflexivity|].
    intros p' K1 K2 K3 K4. apply wp_ret, wp_ret. rewrite <- E' in *.
    assert (HPM : Permutation (concat (La ++ (x :: ids) :: Lb)) (x :: concat (La ++ ids :: Lb))).
    { rewrite !concat_app. cbn [concat app]. symmetry. apply Permutation_middle. }
    apply HQ with (L' := La ++ (x :: ids) :: Lb); auto; try lia.
    - destruct La; discriminate.
    - change (enc v' (La ++ (x :: ids) :: Lb)). apply enc_push_front; auto.
      + intros l' Hl'. rewrite Hvx. apply In_nth with (d := []) in Hl' as (j & Hj & Ej). subst l'.
        assert (0 < i) as Hi0 by lia. specialize (G1 Hi0).
        assert (Hnj : forall k, k < length La -> nth k (La ++ ids :: Lb) [] = nth k La []). { intros k Hk. now rewrite app_nth1. }
        assert (Hin : forall k, k < length La -> In (nth k La []) (La ++ ids :: Lb)). { intros k Hk. apply in_or_app. left. now apply nth_In. }
        assert (Hne : forall k, k < length La -> nth k La [] <> []). { intros k Hk. destruct HE as (E1 & _). rewrite Forall_forall in E1. apply E1. auto. }
        rewrite Hhead by auto. rewrite Hnj in G1 by lia. change (lt (head_of v (nth (i - 1) La [])) y = true) in G1.
        destruct (Nat.eq_dec j (i - 1)) as [->|Hji]; auto. eapply le_lt_trans; [auto| |exact G1].
        destruct HE as (_ & _ & E3 & _). rewrite map_app in E3. apply sorted_app in E3 as (E3 & _).
        refine (sorted_nth _ lt _ j (i - 1) _ _ E3 _ _ _); [lia| |]; apply map_nth_error; apply nth_error_nth'; lia.
      + rewrite Hhead by (auto; apply in_or_app; right; now left). rewrite Hvx. destruct (Nat.eq_dec i (length L0)) as [->|Hne].
        * assert (ids = l) as ->. { assert (nth_error (La ++ ids :: Lb) (length L0) = Some l) as Ell by (rewrite <- ELa; apply nth_mid; auto). congruence. } exact EF.
        * specialize (G2 ltac:(lia)). erewrite nth_error_nth in G2 by exact Ei. exact G2.
    - intros j Hj. eapply HHELD; eauto.
    - exists w. auto. }
  destruct (new_list p) as [sn pn] eqn:EN. apply wp_bind. eapply make_wp; eauto. intros w Hw Hmw. apply wp_bind. unfold push_back. apply wp_bind.
  eapply coll_new; eauto. intros p' K1 K2 K3 K4. apply wp_ret, wp_ret.
  assert (HPM : Permutation (concat ((L0 ++ [l]) ++ [[x]])) (x :: concat (L0 ++ [l]))). { rewrite (concat_app (L0 ++ [l])). cbn [concat app]. symmetry. apply Permutation_cons_append. }
  apply HQ with (L' := (L0 ++ [l]) ++ [[x]]); auto; try lia.
  - destruct L0; discriminate.
  - change (enc v' ((L0 ++ [l]) ++ [[x]])). apply enc_new; auto; [rewrite Hback by auto|rewrite Hhead by auto]; rewrite Hvx; assumption.
  - rewrite app_length. simpl. lia.
  - intros j Hj. eapply HHELD; eauto.
  - exists w. auto.
Qed.
End Build.
