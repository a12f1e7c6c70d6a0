(** The heads and the tails of encroaching lists make a sorted list. *)
From Coq Require Import List Arith Lia Permutation Bool.
From Verif Require Import Spec.Order Lang.Mem Proofs.Wp Proofs.OrderLib Model.Indirect Proofs.Indirect Model.Select Proofs.Select Model.FixedList Model.Mel
  Proofs.FixedList Proofs.ListPath Proofs.ListMerge Proofs.Encroach Proofs.ListRounds.
Import ListNotations.
Local Arguments nth_error : simpl never.
Local Arguments upd : simpl never.
Local Arguments Nat.mul : simpl never.

Lemma extract_wp : forall {A V} (p : node_pool V) s a x b (Q : node_pool V -> mem A -> Prop) m, chain (nodes p) s (a ++ x :: b) ->
  (forall p', length (nodes p') = length (nodes p) -> capacity p' = capacity p -> first_free p' = first_free p -> (forall j, vl (nodes p') j = vl (nodes p) j) ->
     chain (nodes p') s (a ++ b) -> (forall j, nxt (nodes p') j = if j =? lst_or s a then Some (fst_or s b) else nxt (nodes p) j) ->
     (forall j, prv (nodes p') j = if j =? fst_or s b then Some (lst_or s a) else prv (nodes p) j) -> Q p' m) ->
  wp (extract p s x) Q m.
Proof.
  intros A V p s a x b Q m HC HQ. assert (HC' := HC). apply chain_path in HC' as (ND & HB & HP).
  assert (Hx : x < length (nodes p)). { apply HB. right. apply in_or_app. right. now left. }
  assert (Hbef : lst_or s a < length (nodes p)). { apply HB. destruct (in_inv (lst_or_in s a)) as [E|E]; [now left|]. right. apply in_or_app. auto. }
  assert (Haft : fst_or s b < length (nodes p)). { apply HB. destruct (in_inv (fst_or_in s b)) as [E|E]; [now left|]. right. apply in_or_app. right. now right. }
  assert (EP : prv (nodes p) x = Some (lst_or s a)). { pose proof (chain_prev _ _ a (x :: b) HC) as E. exact E. }
  assert (EN : nxt (nodes p) x = Some (fst_or s b)) by (eapply chain_next; eauto).
  unfold extract. apply wp_bind. eapply list_is_empty_wp with (ids := a ++ x :: b).
  { apply path_fwd. exact HP. } { inversion ND; auto. } { apply HB. now left. }
  apply wp_bind. apply wp_assert. { destruct (Nat.eqb_spec x s) as [->|]; auto. clear - ND. exfalso. nodup ND s. }
  apply wp_bind. apply wp_assert. { destruct a; reflexivity. }
  apply wp_bind. apply rd_node; auto. intros n E1 E2 _. apply wp_bind. eapply wp_pointee. { rewrite E2. exact EP. }
  apply wp_bind. apply wp_set_next; auto. intros ns1 L1 X1 P1 V1. rewrite E1, EN in X1.
  apply wp_bind. apply rd_node; [lia|]. intros n' E1' E2' _.
  assert (E3 : nxt ns1 x = Some (fst_or s b)). { rewrite X1. destruct (Nat.eqb_spec x (lst_or s a)) as [E|]; auto. }
  apply wp_bind. eapply wp_pointee. { rewrite E1'. exact E3. }
  apply wp_bind. apply wp_set_prev; [lia|]. intros ns2 L2 P2 X2 V2. rewrite E2', P1, EP in P2. apply wp_ret.
  assert (NX : forall j, nxt ns2 j = if j =? lst_or s a then Some (fst_or s b) else nxt (nodes p) j) by (intros; now rewrite X2, X1).
  assert (PV : forall j, prv ns2 j = if j =? fst_or s b then Some (lst_or s a) else prv (nodes p) j) by (intros; now rewrite P2, P1).
  apply HQ; cbn [nodes capacity first_free with_nodes]; auto; try lia.
  - intros j. now rewrite V2, V1.
  - assert (ND' : NoDup (s :: a ++ b)) by (apply NoDup_cnt; intros j; nodup ND j).
    apply chain_path. split; [auto|]. split. { intros j Hj. rewrite L2, L1. apply HB. simpl in *. rewrite in_app_iff in *. simpl. tauto. }
    rewrite <- app_assoc, cut_after. change (s :: a ++ ?l) with ((s :: a) ++ l). rewrite cut_before, <- app_assoc. cbn [app].
    assert (HP1 : path (nodes p) (s :: a)). { rewrite <- app_assoc in HP. change (s :: a ++ ?l) with ((s :: a) ++ l) in HP. apply linked_split in HP. apply HP. }
    assert (HP2 : path (nodes p) (b ++ [s])). { rewrite <- app_assoc in HP. simpl in HP. change (s :: a ++ x :: ?l) with ((s :: a) ++ [x] ++ l) in HP. rewrite app_assoc in HP. apply linked_split in HP. apply HP. }
    apply linked_join.
    + rewrite <- cut_before. eapply path_frame; [exact HP1| |].
      * intros j Hj. rewrite NX. destruct (Nat.eqb_spec j (lst_or s a)) as [->|]; auto. exfalso.
        assert (NoDup (s :: a)) as ND1 by (apply NoDup_cnt; intros j; nodup ND j). rewrite cut_before in ND1. clear - ND1 Hj. remember (lst_or s a) as q. nodup ND1 q.
      * cbn [tl]. intros j Hj. rewrite PV. destruct (Nat.eqb_spec j (fst_or s b)) as [->|]; auto. exfalso. destruct (in_inv (fst_or_in s b)) as [E|E].
        -- clear - ND Hj E. rewrite <- E in Hj. nodup ND s.
        -- clear - ND Hj E. remember (fst_or s b) as q. nodup ND q.
    + rewrite NX, PV, !Nat.eqb_refl. auto.
    + rewrite <- cut_after. eapply path_frame; [exact HP2| |].
      * rewrite removelast_last. intros j Hj. rewrite NX. destruct (Nat.eqb_spec j (lst_or s a)) as [->|]; auto. exfalso. destruct (in_inv (lst_or_in s a)) as [E|E].
        -- clear - ND Hj E. rewrite <- E in Hj. nodup ND s.
        -- clear - ND Hj E. remember (lst_or s a) as q. nodup ND q.
      * intros j Hj. rewrite PV. destruct (Nat.eqb_spec j (fst_or s b)) as [->|]; auto. exfalso. destruct b as [|y b]; [destruct Hj|]. cbn [app tl fst_or hd] in *.
        apply in_app_or in Hj as [Hj|[<-|[]]]; [clear - ND Hj; nodup ND y|clear - ND; nodup ND s].
Qed.

Section Edges.
Context {A T : Type} (comp : T -> T -> bool) (proj : A -> T).
Variable v : nat -> A.
Local Notation ltn := (fun x y : nat => comp (proj (v x)) (proj (v y))).
Implicit Types (p : node_pool A) (L : list (list nat)) (lists : list nat).

(** The list of sentinel [e] is made of [E], and its last node is not linked to [e] yet. *)
Definition est (ns : list (list_node A)) lists L (e : nat) (E : list nat) : Prop :=
  Forall2 (chain ns) lists L /\ NoDup (lists ++ concat L ++ e :: E) /\ fwd ns (e :: E) /\ (forall x, In x (e :: E) -> x < length ns).

(** A node is taken from a list and linked at the end of the edges. *)
Lemma extract_step : forall p l1 s l2 L1 a x b L2 e E ins (Q : node_pool A -> mem A -> Prop) m, est (nodes p) (l1 ++ s :: l2) (L1 ++ (a ++ x :: b) :: L2) e E ->
  length l1 = length L1 -> ins = lst_or e E ->
  (forall p', same_pool p p' -> est (nodes p') (l1 ++ s :: l2) (L1 ++ (a ++ b) :: L2) e (E ++ [x]) -> x = lst_or e (E ++ [x]) -> Q p' m) ->
  wp (extract p s x) (fun p1 m => wp (set_next (nodes p1) ins (Some x)) (fun ns m => Q (with_nodes p1 ns) m) m) m.
Proof.
  intros p l1 s l2 L1 a x b L2 e E ins Q m (HC & ND & HF & HB) HL -> HQ.
  apply Forall2_at in HC as (l1' & s' & l2' & Eq & HL' & HCs & H1 & H2). apply app_inj_1 in Eq as [<- Eq]; [|lia]. injection Eq as <- <-.
  assert (Hx : x < length (nodes p)). { apply HCs. right. apply in_or_app. right. now left. }
  assert (Hins : lst_or e E < length (nodes p)). { apply HB. destruct (in_inv (lst_or_in e E)) as [E1|E1]; [now left|now right]. }
  eapply extract_wp; [exact HCs|]. intros p1 K1 K2 K3 K4 K5 K6 K7.
  apply wp_set_next; [lia|]. intros ns1 N1 X1 P1 V1.
  assert (Hlast : In (lst_or e E) (e :: E)) by apply lst_or_in.
  assert (Hla : In (lst_or s a) (s :: a)) by apply lst_or_in. assert (Hfb : In (fst_or s b) (s :: b)) by apply fst_or_in.
  assert (D1 : forall j, In j (e :: E) -> In j (l1 ++ s :: l2) -> False). { intros j Ha Hb. clear - ND Ha Hb. nodup ND j. }
  assert (D2 : forall j, In j (e :: E) -> In j (concat (L1 ++ (a ++ x :: b) :: L2)) -> False). { intros j Ha Hb. clear - ND Ha Hb. nodup ND j. }
  assert (D3 : forall j, In j (s :: a ++ x :: b) -> In j (l1 ++ l2 ++ concat L1 ++ concat L2) -> False). { intros j Ha Hb. clear - ND Ha Hb. nodup ND j. }
  assert (HFR : forall j, In j (l1 ++ l2 ++ concat L1 ++ concat L2) -> nxt ns1 j = nxt (nodes p) j /\ prv ns1 j = prv (nodes p) j).
  { intros j Hj. rewrite X1, K6, P1, K7. split.
    - destruct (Nat.eqb_spec j (lst_or e E)) as [->|]. { exfalso. clear - ND Hj Hlast. remember (lst_or e E) as q. nodup ND q. }
      destruct (Nat.eqb_spec j (lst_or s a)) as [->|]; auto. exfalso. apply (D3 (lst_or s a)); auto. simpl in *. rewrite in_app_iff. tauto.
    - destruct (Nat.eqb_spec j (fst_or s b)) as [->|]; auto. exfalso. apply (D3 (fst_or s b)); auto. simpl in *. rewrite in_app_iff. simpl. tauto. }
  apply HQ.
  - unfold same_pool. cbn [nodes capacity first_free with_nodes]. cj; try congruence.
  - unfold est. cbn [nodes with_nodes]. split; [|split; [|split]].
    + apply Forall2_app; [|constructor].
      * eapply chains_frame; [exact H1|lia|]. intros j Hj. apply HFR. rewrite !in_app_iff in *. tauto.
      * eapply chain_frame; [exact K5|lia|]. intros j Hj. rewrite X1, P1. destruct (Nat.eqb_spec j (lst_or e E)) as [->|]; auto. exfalso. clear - ND Hj Hlast. remember (lst_or e E) as q. nodup ND q.
      * eapply chains_frame; [exact H2|lia|]. intros j Hj. apply HFR. rewrite !in_app_iff in *. tauto.
    + apply NoDup_cnt. intros j. clear - ND. nodup ND j.
    + change (fwd ns1 ((e :: E) ++ [x])). rewrite (cut_before e E), <- app_assoc. cbn [app]. apply linked_join.
      * rewrite <- cut_before. eapply fwd_frame; [exact HF|]. intros j Hj. rewrite X1, K6. destruct (Nat.eqb_spec j (lst_or e E)) as [->|].
        { exfalso. assert (NoDup (e :: E)) as NDE by (apply NoDup_cnt; intros j; clear - ND; nodup ND j). rewrite cut_before in NDE. clear - NDE Hj. remember (lst_or e E) as q. nodup NDE q. }
        destruct (Nat.eqb_spec j (lst_or s a)) as [->|]; auto. exfalso.
        assert (In (lst_or s a) (e :: E)) as Hi by (rewrite cut_before; apply in_or_app; auto). clear - ND Hi Hla. remember (lst_or s a) as q. nodup ND q.
      * rewrite X1, Nat.eqb_refl. reflexivity.
      * exact I.
    + intros j Hj. rewrite N1, K1. destruct Hj as [<-|Hj]; [apply HB; now left|]. apply in_app_or in Hj as [Hj|[<-|[]]]; auto. apply HB. now right.
  - unfold lst_or. now rewrite last_last.
Qed.

Lemma est_chain : forall (ns : list (list_node A)) lists L1 l L2 e E, est ns lists (L1 ++ l :: L2) e E ->
  exists l1 s l2, lists = l1 ++ s :: l2 /\ length l1 = length L1 /\ chain ns s l.
Proof. intros ns lists L1 l L2 e E (HC & _). apply Forall2_at in HC as (l1 & s & l2 & -> & HL & HS & _). eauto 6. Qed.

Lemma est_len : forall (ns : list (list_node A)) lists L e E, est ns lists L e E -> length lists = length L.
Proof. intros ns lists L e E (HC & _). eapply Forall2_len; eauto. Qed.

Lemma fronts_wp : forall p lists L e (Q : nat * node_pool A -> mem A -> Prop) m, est (nodes p) lists L e [] -> Forall (fun l => l <> []) L ->
  (forall p', same_pool p p' -> est (nodes p') lists (map (@tl nat) L) e (map (hd 0) L) -> Q (lst_or e (map (hd 0) L), p') m) ->
  wp (loop (S (length lists)) (fun '(i, insert_node, p) =>
    if i =? length lists then ret (inr (insert_node, p)) else
    let* l := rd lists i in
    let* (node, p) := extract_front p l in
    let* ns := set_next (nodes p) insert_node (Some node) in
    ret (inl (S i, node, with_nodes p ns))) (0, e, p)) Q m.
Proof.
  intros p lists L e Q m HE HN HQ. assert (HL := est_len _ _ _ _ _ HE).
  apply wp_loop_k with (k := length lists) (I := fun k '(i, ins, p') m' => m' = m /\ exists La Lb, L = La ++ Lb /\ length La = i /\ k = length Lb /\ ins = lst_or e (map (hd 0) La) /\
    same_pool p p' /\ est (nodes p') lists (map (@tl nat) La ++ Lb) e (map (hd 0) La)).
  - split; auto. exists [], L. cj; auto using same_pool_refl.
  - lia.
  - clear HE. intros k [[i ins] p1] m1 (-> & La & Lb & -> & <- & -> & -> & SP & HE). rewrite app_length in HL.
    destruct (Nat.eqb_spec (length La) (length lists)) as [Hi|Hi].
    + apply wp_ret. destruct Lb as [|l Lb]; [|simpl in HL; lia]. rewrite !app_nil_r in *. apply HQ; auto.
    + destruct Lb as [|l Lb]; [simpl in HL; lia|]. apply Forall_app in HN as [_ HN]. apply Forall_cons_iff in HN as [Hl _]. destruct l as [|x l]; [congruence|].
      destruct (est_chain _ _ _ _ _ _ _ HE) as (l1 & s & l2 & El & Hl1 & HC).
      apply wp_bind. eapply wp_rd. { rewrite El. apply nth_mid. rewrite map_length in Hl1. auto. }
      unfold extract_front. apply wp_bind, wp_bind. apply rd_node. { apply HC. now left. } intros n En _ _. apply wp_bind. eapply wp_pointee. { rewrite En. apply (chain_begin _ _ _ HC). }
      cbn [fst_or hd]. apply wp_bind. rewrite El in HE. eapply wp_mono; [eapply extract_step with (a := []) (Q := fun p' m' => m' = m /\ same_pool p1 p' /\ est (nodes p') lists (map (@tl nat) (La ++ [x :: l]) ++ Lb) e (map (hd 0) (La ++ [x :: l])) /\ x = lst_or e (map (hd 0) (La ++ [x :: l])))|].
      * exact HE.
      * exact Hl1.
      * reflexivity.
      * intros p2 SP2 HE2 Ex. cj; auto. { rewrite map_app, <- app_assoc, map_app, El. exact HE2. } rewrite map_app. exact Ex.
      * intros p2 m2 HW2. apply wp_ret. apply wp_bind. eapply wp_mono; [exact HW2|]. intros ns m3 (-> & SP2 & HE2 & Ex). apply wp_ret.
        exists (length Lb). split; [simpl; lia|]. split; auto. exists (La ++ [x :: l]), Lb. cj; auto.
        -- now rewrite <- app_assoc.
        -- rewrite app_length. simpl. lia.
        -- eapply same_pool_trans; eauto.
Qed.

Lemma backs_wp : forall p lists L e E0 (Q : nat * node_pool A -> mem A -> Prop) m, est (nodes p) lists L e E0 -> Forall (fun l => l <> []) L ->
  (forall p' E, E = E0 ++ rev (map (fun l => last l 0) L) -> same_pool p p' -> est (nodes p') lists (map (@removelast nat) L) e E -> Q (lst_or e E, p') m) ->
  wp (loop (S (length lists)) (fun '(i, insert_node, p) =>
    if i =? 0 then ret (inr (insert_node, p)) else
    let* l := rd lists (i - 1) in
    let* (node, p) := extract_back p l in
    let* ns := set_next (nodes p) insert_node (Some node) in
    ret (inl (i - 1, node, with_nodes p ns))) (length lists, lst_or e E0, p)) Q m.
Proof.
  intros p lists L e E0 Q m HE HN HQ. assert (HL := est_len _ _ _ _ _ HE).
  apply wp_loop_k with (k := length lists) (I := fun k '(i, ins, p') m' => m' = m /\ exists La Lb E, L = La ++ Lb /\ length La = i /\ k = length La /\ ins = lst_or e E /\
    E = E0 ++ rev (map (fun l => last l 0) Lb) /\
    same_pool p p' /\ est (nodes p') lists (La ++ map (@removelast nat) Lb) e E).
  - split; auto. exists L, [], E0. cbn [map rev]. rewrite !app_nil_r. cj; auto using same_pool_refl.
  - lia.
  - clear HE. intros k [[i ins] p1] m1 (-> & La & Lb & E & -> & <- & -> & -> & EE & SP & HE). rewrite app_length in HL.
    destruct La as [|l La _] using rev_ind.
    + cbn [length Nat.eqb]. apply wp_ret. apply HQ; auto.
    + destruct (Nat.eqb_spec (length (La ++ [l])) 0) as [Hi|Hi]. { rewrite app_length in Hi. simpl in Hi. lia. } rewrite app_length in HL |- *. cbn [length] in *. rewrite Nat.add_sub.
      rewrite <- app_assoc in *. cbn [app] in *. apply Forall_app in HN as [_ HN]. apply Forall_cons_iff in HN as [Hl _]. destruct l as [|x l _] using rev_ind; [congruence|].
      destruct (est_chain _ _ _ _ _ _ _ HE) as (l1 & s & l2 & El & Hl1 & HC).
      apply wp_bind. eapply wp_rd. { rewrite El. apply nth_mid. auto. }
      unfold extract_back. apply wp_bind, wp_bind. apply rd_node. { apply HC. now left. } intros n _ En _. apply wp_bind. eapply wp_pointee. { rewrite En. rewrite (chain_prev_end _ _ _ HC), lst_or_app. reflexivity. }
      apply wp_bind. rewrite El in HE. eapply wp_mono; [eapply extract_step with (b := []) (Q := fun p' m' => m' = m /\ same_pool p1 p' /\ est (nodes p') lists (La ++ map (@removelast nat) ((l ++ [x]) :: Lb)) e (E ++ [x]) /\ x = lst_or e (E ++ [x]))|].
      * exact HE.
      * exact Hl1.
      * reflexivity.
      * intros p2 SP2 HE2 Ex. cj; auto. cbn [map]. rewrite removelast_last, El. rewrite app_nil_r in HE2. exact HE2.
      * intros p2 m2 HW2. apply wp_ret. apply wp_bind. eapply wp_mono; [exact HW2|]. intros ns m3 (-> & SP2 & HE2 & Ex). apply wp_ret.
        exists (length La). split; [lia|]. split; auto. exists La, ((l ++ [x]) :: Lb), (E ++ [x]). cj; auto.
        -- rewrite EE. cbn [map rev]. rewrite last_last, app_assoc. reflexivity.
        -- eapply same_pool_trans; eauto.
Qed.

Lemma keep_wp : forall p lists L e E (Q : list nat -> mem A -> Prop) m, est (nodes p) lists L e E ->
  (forall lists' L', est (nodes p) lists' L' e E -> concat L' = concat L -> Forall (fun l => l <> [] /\ In l L) L' -> Q lists' m) ->
  wp (loop (S (length lists)) (fun '(i, kept) =>
    if i =? length lists then ret (inr kept) else
    let* l := rd lists i in
    let* e := list_is_empty p l in
    ret (inl (S i, if e then kept else kept ++ [l]))) (0, [])) Q m.
Proof.
  intros p lists L e E Q m HE HQ. assert (HL := est_len _ _ _ _ _ HE). assert (HE' := HE). destruct HE' as (_ & _ & HF & HB).
  apply wp_loop_k with (k := length lists) (I := fun k '(i, kept) m' => m' = m /\ exists la lb La Lb Lk, lists = la ++ lb /\ L = La ++ Lb /\ length la = i /\ length La = i /\ k = length lb /\
    Forall2 (chain (nodes p)) (kept ++ lb) (Lk ++ Lb) /\ NoDup ((kept ++ lb) ++ concat L ++ e :: E) /\ concat (Lk ++ Lb) = concat L /\ Forall (fun l => l <> [] /\ In l L) Lk).
  - split; auto. exists [], lists, [], L, []. destruct HE as (H1 & H2 & _). cj; auto.
  - lia.
  - intros k [i kept] m1 (-> & la & lb & La & Lb & Lk & -> & -> & <- & HLa & -> & HC & ND & HCC & HG). rewrite !app_length in HL.
    destruct (Nat.eqb_spec (length la) (length (la ++ lb))) as [Hi|Hi].
    + apply wp_ret. rewrite app_length in Hi. destruct lb; [|simpl in Hi; lia]. destruct Lb; [|simpl in *; lia]. rewrite !app_nil_r in *. apply HQ with (L' := Lk); auto.
      split; [exact HC|]. split; [rewrite HCC; exact ND|]. auto.
    + rewrite app_length in Hi. destruct lb as [|s lb]; [simpl in Hi; lia|]. destruct Lb as [|l Lb]; [simpl in *; lia|].
      apply wp_bind. eapply wp_rd. { now apply nth_mid. }
      apply Forall2_app_inv_r in HC as (k1 & k2 & C1 & C2 & Ek).
      assert (length k1 = length kept) as Hk1. { apply Forall2_len in C2. apply (f_equal (@length nat)) in Ek. rewrite !app_length in Ek. simpl in *. lia. }
      apply app_inj_1 in Ek as [<- <-]; [|lia]. assert (chain (nodes p) s l /\ Forall2 (chain (nodes p)) lb Lb) as [C2' C3] by (inversion C2; auto). clear C2. rename C2' into C2.
      apply wp_bind. eapply list_is_empty_wp with (ids := l). { apply chain_path in C2 as (_ & _ & C2). apply path_fwd. exact C2. } { destruct C2 as (C2 & _). inversion C2; auto. } { apply C2. now left. }
      apply wp_ret. exists (length lb). split; [simpl; lia|]. split; auto. exists (la ++ [s]), lb, (La ++ [l]), Lb.
      assert (EQ1 : la ++ s :: lb = (la ++ [s]) ++ lb) by now rewrite <- app_assoc. assert (EQ2 : La ++ l :: Lb = (La ++ [l]) ++ Lb) by now rewrite <- app_assoc.
      destruct l as [|x l].
      * exists Lk. cj; auto; try (rewrite app_length; simpl; lia).
        -- apply Forall2_app; auto.
        -- apply NoDup_cnt. intros j. clear - ND. nodup ND j.
        -- rewrite <- HCC, !concat_app. reflexivity.
      * exists (Lk ++ [x :: l]). cj; auto; try (rewrite app_length; simpl; lia).
        -- rewrite <- !app_assoc. apply Forall2_app; auto. constructor; auto.
        -- rewrite <- !app_assoc. rewrite <- !app_assoc in ND. exact ND.
        -- rewrite <- app_assoc. exact HCC.
        -- apply Forall_app. split; auto. constructor; auto. split; [discriminate|]. apply in_or_app. right. now left.
Qed.

Lemma concat_edges : forall L, Forall (fun l => l <> []) L -> Permutation (concat L) (map (hd 0) L ++ concat (map (@tl nat) L)).
Proof.
  intros L H. induction H as [|l L Hl H IH]; simpl; auto. destruct l as [|x l]; [congruence|]. cbn [hd tl app]. constructor. rewrite IH. rewrite !app_assoc. apply Permutation_app_tail. apply Permutation_app_comm.
Qed.
Lemma concat_backs : forall L, Forall (fun l => l <> []) L -> Permutation (concat L) (rev (map (fun l => last l 0) L) ++ concat (map (@removelast nat) L)).
Proof.
  intros L H. rewrite <- Permutation_rev. induction H as [|l L Hl H IH]; simpl; auto. rewrite (app_removelast_last 0 Hl) at 1. rewrite IH. rewrite <- app_assoc. cbn [app].
  rewrite <- Permutation_middle. constructor. rewrite !app_assoc. apply Permutation_app_tail. apply Permutation_app_comm.
Qed.

Local Notation lt := (by_proj comp proj).
Hypothesis HW : strict_weak_order lt.

Lemma sorted_nodes : forall l, sorted ltn l <-> sorted lt (map v l).
Proof.
  intros l. unfold sorted. split; intros H i j x y Hij Hi Hj.
  - rewrite nth_error_map in Hi, Hj. destruct (nth_error l i) eqn:E1; [|discriminate]. destruct (nth_error l j) eqn:E2; [|discriminate]. injection Hi as <-. injection Hj as <-. exact (H _ _ _ _ Hij E1 E2).
  - apply (H i j (v x) (v y) Hij); rewrite nth_error_map; [rewrite Hi|rewrite Hj]; reflexivity.
Qed.

Lemma sorted_sub : forall (r : nat -> nat -> bool) l, sorted r l -> sorted r (tl l) /\ sorted r (removelast l).
Proof.
  intros r l H. split.
  - destruct l as [|x l]; auto. apply sorted_cons in H. apply H.
  - destruct l as [|x l _] using rev_ind; auto. rewrite removelast_last. apply sorted_app in H. apply H.
Qed.

Lemma sorted_rev' : forall (r : nat -> nat -> bool) l, sorted (fun x y => r y x) l -> sorted r (rev l).
Proof.
  intros r l. induction l as [|x l IH]; intros H; simpl; [apply sorted_nil|]. apply sorted_cons in H as [H1 H2]. apply sorted_app. cj; auto using sorted_one.
  intros a b Ha [<-|[]]. apply in_rev in Ha. exact (H1 a Ha).
Qed.

Lemma extract_edges_wp : forall p lists L e (Q : list nat * node_pool A -> mem A -> Prop) m, est (nodes p) lists L e [] -> L <> [] -> enc comp proj v L ->
  (forall p' lists' L' E, same_pool p p' -> Forall2 (chain (nodes p')) lists' L' -> NoDup (lists' ++ concat L' ++ e :: E) -> fwd (nodes p') (e :: E ++ [e]) ->
     prv (nodes p') e = Some (lst_or e E) -> (forall x, In x (e :: E) -> x < length (nodes p')) -> good comp proj v L' -> sorted ltn E -> E <> [] ->
     Permutation (concat L) (E ++ concat L') -> Q (lists', p') m) ->
  wp (extract_edges p lists e) Q m.
Proof.
  intros p lists L e Q m HE HN (E1 & E2 & E3 & E4 & E5) HQ. unfold extract_edges. apply wp_bind. apply fronts_wp with (L := L); auto. intros p1 SP1 HE1.
  destruct (exists_last HN) as (L0 & l & EL).
  assert (HLN := est_len _ _ _ _ _ HE1). rewrite map_length in HLN.
  assert (Ht : length lists = S (length L0)). { rewrite HLN, EL, app_length. simpl. lia. }
  assert (HE1' := HE1). rewrite EL, map_app in HE1'. cbn [map] in HE1'. destruct (est_chain _ _ _ _ _ _ _ HE1') as (l1 & s & l2 & El & Hl1 & HC). rewrite map_length in Hl1.
  assert (l2 = []) as El2. { apply (f_equal (@length nat)) in El. rewrite app_length in El. simpl in El. destruct l2; auto. simpl in El. lia. } subst l2.
  apply wp_bind. eapply wp_rd. { rewrite El. apply nth_mid. rewrite app_length. simpl. lia. }
  apply wp_bind. eapply list_is_empty_wp with (ids := tl l). { apply chain_path in HC as (_ & _ & HC). apply path_fwd. exact HC. } { destruct HC as (HC & _). inversion HC; auto. } { apply HC. now left. }
  (* the lists that are left, whose nodes are [L1] *)
  assert (exists lists1 L1, (if match tl l with [] => true | _ => false end then removelast lists else lists) = lists1 /\ est (nodes p1) lists1 L1 e (map (hd 0) L) /\
     Forall (fun l => l <> []) L1 /\ concat L1 = concat (map (@tl nat) L) /\ (exists K, map (@tl nat) L = L1 ++ K)) as (lists1 & L1 & -> & HE2 & HN1 & HC1 & HK).
  { rewrite EL, removelast_last in E5. assert (F0 : Forall (fun l => l <> []) (map (@tl nat) L0)).
    { apply Forall_map. eapply Forall_impl; [|exact E5]. intros [|a [|b c]]; simpl; intros; [lia|lia|discriminate]. }
    destruct (tl l) as [|y t] eqn:Et.
    - exists l1, (map (@tl nat) L0). rewrite El, removelast_last. cj; auto.
      + rewrite EL, map_app in HE1. cbn [map] in HE1. rewrite Et, El in HE1. destruct HE1 as (C1 & C2 & C3 & C4).
        apply Forall2_app_inv_l in C1 as (Ka & Kb & C5 & C6 & Ek). inversion C6 as [|? ? ? ? C7 C8]; subst. inversion C8; subst. apply app_inj_tail in Ek as [<- <-].
        split; [auto|]. split; [|split; auto]. apply NoDup_cnt. intros j. clear - C2. nodup C2 j.
      + rewrite EL, map_app, concat_app. cbn [map concat]. rewrite Et. now rewrite !app_nil_r.
      + exists [tl l]. rewrite EL, map_app. reflexivity.
    - exists lists, (map (@tl nat) L). cj; auto.
      + rewrite EL, map_app. apply Forall_app. split; auto. constructor; auto. rewrite Et. discriminate.
      + exists []. now rewrite app_nil_r. }
  apply wp_bind. eapply backs_wp; [exact HE2|auto|]. intros p2 E EE SP2 HE3.
  assert (HB3 : forall x, In x (e :: E) -> x < length (nodes p2)) by apply HE3.
  assert (Hlst : In (lst_or e E) (e :: E)) by apply lst_or_in.
  apply wp_bind. apply wp_set_next; auto. intros ns3 N3 X3 P3 V3.
  apply wp_bind. apply wp_set_prev. { rewrite N3. apply HB3. now left. } intros ns4 N4 P4 X4 V4.
  assert (HE4 : est ns4 lists1 (map (@removelast nat) L1) e E /\ fwd ns4 (e :: E ++ [e])).
  { destruct HE3 as (C1 & C2 & C3 & C4).
    assert (C5 : fwd ns4 (e :: E)).
    { eapply fwd_frame; [exact C3|]. intros j Hj. rewrite X4, X3. destruct (Nat.eqb_spec j (lst_or e E)) as [->|]; auto. exfalso.
      assert (NoDup (e :: E)) as NDE by (apply NoDup_cnt; intros j; clear - C2; nodup C2 j). rewrite cut_before in NDE. clear - NDE Hj. remember (lst_or e E) as q. nodup NDE q. }
    split; [split; [|split; [|split]]|]; auto.
    - eapply chains_frame; [exact C1|lia|]. intros j Hj. rewrite X4, X3, P4, P3. destruct (Nat.eqb_spec j (lst_or e E)) as [->|].
      + exfalso. clear - C2 Hj Hlst. remember (lst_or e E) as q. apply in_app_or in Hj as [Hj|Hj]; nodup C2 q.
      + destruct (Nat.eqb_spec j e) as [->|]; auto. exfalso. clear - C2 Hj. apply in_app_or in Hj as [Hj|Hj]; nodup C2 e.
    - intros j Hj. rewrite N4, N3. auto.
    - change (fwd ns4 ((e :: E) ++ [e])). rewrite (cut_before e E) at 1. rewrite <- app_assoc. cbn [app]. apply linked_join; [rewrite <- cut_before; exact C5| |exact I].
      rewrite X4, X3, Nat.eqb_refl. reflexivity. }
  destruct HE4 as [HE4 HF4]. apply wp_bind. eapply (keep_wp (with_nodes p2 ns4)); [exact HE4|]. intros lists' L' HE5 HC5 HG5. apply wp_ret.
  assert (HLN' : forall l, In l L -> l <> []). { rewrite Forall_forall in E1. auto. }
  destruct HE5 as (C1 & C2 & C3 & C4). cbn [nodes with_nodes] in *.
  assert (HEN : E <> []). { rewrite EE. destruct L as [|k L]; [congruence|]. discriminate. }
  apply HQ with (L' := L') (E := E); auto.
  - destruct SP1 as (A1 & A2 & A3 & A4), SP2 as (B1 & B2 & B3 & B4). unfold same_pool. cbn [nodes with_nodes capacity first_free]. cj; congruence.
  - cbn [nodes with_nodes]. rewrite P4, Nat.eqb_refl. reflexivity.
  - (* what is left of the lists is sorted *)
    apply Forall_forall. intros k Hk. rewrite Forall_forall in HG5. destruct (HG5 k Hk) as [Hk1 Hk2]. split; auto.
    apply in_map_iff in Hk2 as (k1 & <- & Hk2). apply sorted_sub. destruct HK as (K & HK).
    assert (In k1 (map (@tl nat) L)) as Hk3 by (rewrite HK; apply in_or_app; auto). apply in_map_iff in Hk3 as (k2 & <- & Hk3). apply sorted_sub.
    apply sorted_nodes. rewrite Forall_forall in E2. auto.
  - (* the edges are sorted *)
    rewrite EE. apply sorted_app.
    assert (HH : forall l1 l2, In l1 L -> In l2 L -> le lt (head_of v l1) (back_of v l2)).
    { intros k1 k2 H1 H2. assert (le lt (head_of v k1) (head_of v l)) as G1.
      { rewrite EL in E3, H1. rewrite map_app in E3. apply sorted_app in E3 as (_ & _ & E3). apply in_app_or in H1 as [H1|[<-|[]]]; [|now apply le_refl]. apply E3; [now apply in_map|now left]. }
      assert (le lt (back_of v l) (back_of v k2)) as G2.
      { rewrite EL in E4, H2. rewrite map_app in E4. apply sorted_app in E4 as (_ & _ & E4). apply in_app_or in H2 as [H2|[<-|[]]]; [|now apply le_refl]. apply (E4 (back_of v k2) (back_of v l)); [now apply in_map|now left]. }
      assert (le lt (head_of v l) (back_of v l)) as G3.
      { assert (In l L) as Hl by (rewrite EL; apply in_or_app; right; now left). rewrite Forall_forall in E2. specialize (E2 l Hl). specialize (HLN' l Hl). unfold head_of, back_of.
        destruct l as [|y l]; [congruence|]. cbn [hd]. apply sorted_cons in E2 as [E2 _]. destruct l as [|z l]; [now apply le_refl|]. assert (In (v (last (z :: l) 0)) (map v (z :: l))) as HI by (apply in_map, last_in; discriminate). exact (E2 _ HI). }
      eapply le_trans; [auto|exact G1|]. eapply le_trans; eauto. }
    assert (HLAST : map (fun l => last l 0) L1 = firstn (length L1) (map (fun l => last l 0) L)).
    { destruct HK as (K & HK). assert (length L1 <= length L) as HLL. { apply (f_equal (@length (list nat))) in HK. rewrite map_length, app_length in HK. lia. }
      rewrite <- (firstn_skipn (length L1) L) in HK. rewrite map_app in HK. apply app_inj_1 in HK as [HK _]; [|rewrite map_length, firstn_length; lia].
      rewrite <- HK at 1. rewrite map_map, firstn_map. apply map_ext_in. intros k Hk. assert (tl k <> []) as Hkt. { rewrite Forall_forall in HN1. apply HN1. rewrite <- HK. now apply in_map. }
      destruct k as [|y [|z k]]; try (simpl in Hkt; congruence). reflexivity. }
    cj.
    + apply sorted_nodes. rewrite map_map. exact E3.
    + apply sorted_rev'. rewrite HLAST. rewrite <- (firstn_skipn (length L1) L) in E4. rewrite map_app in E4. apply sorted_app in E4 as (E4 & _).
      rewrite firstn_map. intros i j x y Hij Hi Hj. rewrite nth_error_map in Hi, Hj. destruct (nth_error (firstn (length L1) L) i) as [q1|] eqn:G1; [|discriminate]. destruct (nth_error (firstn (length L1) L) j) as [q2|] eqn:G2; [|discriminate].
      injection Hi as <-. injection Hj as <-. apply (E4 i j (back_of v q1) (back_of v q2) Hij); rewrite nth_error_map; [rewrite G1|rewrite G2]; reflexivity.
    + intros a b Ha Hb. apply in_map_iff in Ha as (k1 & <- & Hk1). apply in_rev in Hb. rewrite HLAST in Hb. rewrite firstn_map in Hb. apply in_map_iff in Hb as (k2 & <- & Hk2).
      apply (HH k1 k2); auto. rewrite <- (firstn_skipn (length L1) L). apply in_or_app. auto.
  - rewrite (concat_edges L E1), HC5, EE, <- app_assoc. apply Permutation_app_head. rewrite <- HC1. apply concat_backs. auto.
Qed.
End Edges.
