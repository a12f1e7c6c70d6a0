(** The container-aware mel sort. *)
From Coq Require Import List Arith Bool Lia Permutation.
From Verif Require Import Spec.Order Lang.Lists Spec.Lists Model.ContainerAware Proofs.OrderLib Proofs.Lists Proofs.ContainerAware.
Import ListNotations.

(** Vectors. *)
Lemma vector_at_split : forall X (v1 : list X) c v2, vector_at (v1 ++ c :: v2) (length v1) = Done c.
Proof. intros. unfold vector_at. rewrite nth_error_app2, Nat.sub_diag by lia. reflexivity. Qed.
Lemma vector_set_split : forall X (v1 : list X) c v2 d, vector_set (v1 ++ c :: v2) (length v1) d = v1 ++ d :: v2.
Proof. intros. unfold vector_set. now rewrite firstn_len, skipn_len_S. Qed.
Lemma split_at : forall X (v : list X) i, i < length v -> exists v1 c v2, v = v1 ++ c :: v2 /\ length v1 = i.
Proof.
  intros X v i H. destruct (nth_error v i) as [c|] eqn:E; [|apply nth_error_None in E; lia].
  destruct (nth_error_split _ _ E) as (v1 & v2 & -> & L). eauto.
Qed.
Lemma nth_set_other : forall X (v : list X) i j d, i < length v -> i <> j -> nth_error (vector_set v i d) j = nth_error v j.
Proof.
  intros X v i j d Hi N. destruct (split_at X v i Hi) as (v1 & c & v2 & -> & <-). rewrite vector_set_split.
  destruct (Nat.lt_ge_cases j (length v1)). { now rewrite !nth_error_app1. }
  rewrite !nth_error_app2 by lia. replace (j - length v1) with (S (j - length v1 - 1)) by lia. reflexivity.
Qed.
Lemma nth_set_same : forall X (v : list X) i d, i < length v -> nth_error (vector_set v i d) i = Some d.
Proof.
  intros X v i d Hi. destruct (split_at X v i Hi) as (v1 & c & v2 & -> & <-). rewrite vector_set_split, nth_error_app2, Nat.sub_diag by lia. reflexivity.
Qed.
Lemma vector_set_length : forall X (v : list X) i d, i < length v -> length (vector_set v i d) = length v.
Proof.
  intros X v i d Hi. destruct (split_at X v i Hi) as (v1 & c & v2 & -> & <-). rewrite vector_set_split, !app_length. reflexivity.
Qed.
Lemma vector_set_Forall : forall X (P : X -> Prop) v i d, i < length v -> Forall P v -> P d -> Forall P (vector_set v i d).
Proof.
  intros X P v i d Hi F Hd. destruct (split_at X v i Hi) as (v1 & c & v2 & -> & <-). rewrite vector_set_split.
  apply Forall_app in F as [F1 F2]. inversion F2; subst. apply Forall_app. auto.
Qed.
Lemma concat_set : forall X (v : list (list X)) i c d, nth_error v i = Some c -> Permutation (c ++ concat (vector_set v i d)) (d ++ concat v).
Proof.
  intros X v i c d E. destruct (nth_error_split _ _ E) as (v1 & v2 & -> & <-). rewrite vector_set_split, !concat_app. cbn [concat].
  rewrite !(Permutation_app_swap_app (concat v1)). rewrite !app_assoc. apply Permutation_app_tail. apply Permutation_app_tail. apply Permutation_app_comm.
Qed.

Section Proofs.
Context {A T : Type} (comp : T -> T -> bool) (proj : A -> T).
Hypothesis HC : strict_weak_order comp.
Notation lt := (by_proj comp proj).
Notation ltn := (by_value lt).
Implicit Types (l : list (node A)) (L : list (list (node A))).

Lemma vector_lower_bound_done : forall X (cmp : T -> T -> bool) (key : X -> out A) (k : X -> A) v last value, last <= length v ->
  (forall c, In c v -> key c = Done (k c)) ->
  (forall i j a b, i < j -> j < last -> nth_error v i = Some a -> nth_error v j = Some b -> cmp (proj (k b)) value = true -> cmp (proj (k a)) value = true) ->
  exists i, vector_lower_bound proj cmp key v last value = Done i /\ i <= last /\
    (forall j c, j < i -> nth_error v j = Some c -> cmp (proj (k c)) value = true) /\
    (i < last -> forall c, nth_error v i = Some c -> cmp (proj (k c)) value = false).
Proof.
  intros X cmp key k v last value Hl HK HM. unfold vector_lower_bound.
  apply (iter_rule (nat * nat) nat) with (mu := fun s : nat * nat => snd s)
    (Inv := fun s : nat * nat => fst s + snd s <= last /\ (forall j c, j < fst s -> nth_error v j = Some c -> cmp (proj (k c)) value = true) /\
        (forall j c, fst s + snd s <= j < last -> nth_error v j = Some c -> cmp (proj (k c)) value = false))
    (Q := fun i => i <= last /\ (forall j c, j < i -> nth_error v j = Some c -> cmp (proj (k c)) value = true) /\
        (i < last -> forall c, nth_error v i = Some c -> cmp (proj (k c)) value = false)).
  - intros [a n] (H1 & H2 & H3). cbn [fst snd] in *. destruct (0 <? n) eqn:E.
    + apply Nat.ltb_lt in E. pose proof (half_lt n E). unfold vector_at. destruct (nth_error v (a + n / 2)) as [c|] eqn:N; [|apply nth_error_None in N; lia].
      cbn [andthen]. rewrite HK by (eapply nth_error_In; eauto). cbn [andthen]. destruct (cmp (proj (k c)) value) eqn:C; cbn [fst snd]; (split; [|lia]).
      * split; [lia|]. split. { intros j d Hj D. destruct (Nat.eq_dec j (a + n / 2)) as [->|]; [congruence|]. apply (HM j (a + n / 2) d c); auto; lia. }
        intros j d Hj D. apply (H3 j d); auto. lia.
      * split; [lia|]. split; [auto|]. intros j d Hj D. destruct (cmp (proj (k d)) value) eqn:C'; auto.
        destruct (Nat.eq_dec j (a + n / 2)) as [->|]; [congruence|]. rewrite (HM (a + n / 2) j c d) in C; auto; lia.
    + apply Nat.ltb_ge in E. split; [lia|]. split; [auto|]. intros Ha c N. apply (H3 a c); auto. lia.
  - cbn [fst snd]. split; [lia|]. split; intros; lia.
  - cbn [snd]. lia.
Qed.

(** Encroaching lists. *)
Context (d : node A).
Definition enc L : Prop := Forall (fun l => l <> []) L /\ Forall (sorted ltn) L /\ sorted ltn (map (hd d) L) /\ sorted (fun x y => ltn y x) (map (fun l => last l d) L).

Lemma ltn_order : strict_weak_order ltn.
Proof. now apply ltn_swo. Qed.

Lemma sorted_replace : forall (r : node A -> node A -> bool) l1 x y l2, sorted r (l1 ++ x :: l2) -> (forall z, In z l1 -> r y z = false) -> (forall z, In z l2 -> r z y = false) ->
  sorted r (l1 ++ y :: l2).
Proof.
  intros r l1 x y l2 H H1 H2. apply sorted_app in H as (S1 & S2 & S3). apply sorted_cons in S2 as [S2 S4]. apply sorted_app. split; [auto|split].
  - apply sorted_cons. split; auto.
  - intros a b Ha [<-|Hb]; [apply H1; auto | apply S3; auto; now right].
Qed.

Lemma last_snoc : forall l x, last (l ++ [x]) d = x.
Proof. induction l as [|a l IH]; intros x; auto. simpl. rewrite IH. destruct (l ++ [x]) eqn:E; auto. destruct l; discriminate. Qed.
Lemma hd_snoc : forall l x, l <> [] -> hd d (l ++ [x]) = hd d l.
Proof. destruct l; [congruence|reflexivity]. Qed.
Lemma sorted_last : forall l x, sorted ltn l -> In x l -> ltn (last l d) x = false.
Proof.
  intros l x H Hx. destruct l as [|y l _] using rev_ind; [destruct Hx|]. rewrite last_snoc. apply sorted_app in H as (_ & _ & H).
  apply in_app_or in Hx as [Hx|[<-|[]]]; [apply H; auto; now left | apply lt_irrefl, ltn_order].
Qed.
Lemma sorted_hd : forall l x, sorted ltn l -> In x l -> ltn x (hd d l) = false.
Proof.
  intros l x H Hx. destruct l as [|y l]; [destruct Hx|]. apply sorted_cons in H as [H _]. destruct Hx as [<-|Hx]; [apply lt_irrefl, ltn_order | apply H, Hx].
Qed.

Lemma enc_push_back : forall L1 l L2 x, enc (L1 ++ l :: L2) -> (forall l', In l' L1 -> ltn x (last l' d) = true) -> ltn x (last l d) = false ->
  enc (L1 ++ (l ++ [x]) :: L2).
Proof.
  intros L1 l L2 x (E1 & E2 & E3 & E4) HP HB. apply Forall_app in E1 as [F1 F2]. apply Forall_cons_iff in F2 as [F2 F3].
  apply Forall_app in E2 as [G1 G2]. apply Forall_cons_iff in G2 as [G2 G3]. split; [|split; [|split]].
  - apply Forall_app. split; auto. constructor; auto. destruct l; discriminate.
  - apply Forall_app. split; auto. constructor; auto. apply sorted_app. split; [auto|]. split; [apply sorted_one|].
    intros a b Ha [<-|[]]. apply (le_trans ltn ltn_order a (last l d) x); [|exact HB]. now apply sorted_last.
  - rewrite map_app in *. cbn [map] in *. now rewrite hd_snoc.
  - rewrite map_app in *. cbn [map] in *. rewrite last_snoc. eapply sorted_replace; [exact E4| |].
    + intros z Hz. apply in_map_iff in Hz as (l' & <- & Hl'). apply (lt_asym ltn ltn_order); auto.
    + intros z Hz. apply sorted_app in E4 as (_ & E4 & _). apply sorted_cons in E4 as [E4 _]. specialize (E4 z Hz).
      apply (le_trans ltn ltn_order z (last l d) x); auto.
Qed.

Lemma enc_push_front : forall L1 l L2 x, enc (L1 ++ l :: L2) -> (forall l', In l' L1 -> ltn (hd d l') x = true) -> ltn (hd d l) x = false ->
  enc (L1 ++ (x :: l) :: L2).
Proof.
  intros L1 l L2 x (E1 & E2 & E3 & E4) HP HB. apply Forall_app in E1 as [F1 F2]. apply Forall_cons_iff in F2 as [F2 F3].
  apply Forall_app in E2 as [G1 G2]. apply Forall_cons_iff in G2 as [G2 G3]. split; [|split; [|split]].
  - apply Forall_app. split; auto. constructor; auto. discriminate.
  - apply Forall_app. split; auto. constructor; auto. apply sorted_cons. split; auto.
    intros b Hb. apply (le_trans ltn ltn_order x (hd d l) b); [exact HB|]. now apply sorted_hd.
  - rewrite map_app in *. cbn [map hd] in *. eapply sorted_replace; [exact E3| |].
    + intros z Hz. apply in_map_iff in Hz as (l' & <- & Hl'). apply (lt_asym ltn ltn_order); auto.
    + intros z Hz. apply sorted_app in E3 as (_ & E3 & _). apply sorted_cons in E3 as [E3 _]. specialize (E3 z Hz).
      apply (le_trans ltn ltn_order x (hd d l) z); auto.
  - rewrite map_app in *. cbn [map] in *. replace (last (x :: l) d) with (last l d); auto. destruct l; [congruence|reflexivity].
Qed.

Lemma enc_new : forall L l x, enc (L ++ [l]) -> ltn x (last l d) = true -> ltn (hd d l) x = true -> enc ((L ++ [l]) ++ [[x]]).
Proof.
  intros L l x (E1 & E2 & E3 & E4) HB HH. split; [|split; [|split]].
  - apply Forall_app. split; auto. constructor; auto. discriminate.
  - apply Forall_app. split; auto. constructor; auto. apply sorted_one.
  - rewrite map_app. apply sorted_app. split; [auto|]. split; [apply sorted_one|]. intros a b Ha [<-|[]]. cbn [hd].
    apply (lt_asym ltn ltn_order). rewrite map_app in *. cbn [map] in *. apply in_app_or in Ha as [Ha|[<-|[]]]; auto. apply sorted_app in E3 as (_ & _ & E3).
    apply (le_lt_trans ltn ltn_order a (hd d l) x); auto. apply E3; auto. now left.
  - rewrite map_app. apply sorted_app. split; [auto|]. split; [apply sorted_one|]. intros a b Ha [<-|[]]. cbn [last].
    apply (lt_asym ltn ltn_order). rewrite map_app in *. cbn [map] in *. apply in_app_or in Ha as [Ha|[<-|[]]]; auto. apply sorted_app in E4 as (_ & _ & E4).
    apply (lt_le_trans ltn ltn_order x (last l d) a); auto. apply (E4 a (last l d)); auto. now left.
Qed.

Lemma back_last : forall l, l <> [] -> back l = Done (snd (last l d)).
Proof.
  intros l H. destruct l as [|x l _] using rev_ind; [congruence|]. unfold back. rewrite rev_app_distr, last_snoc. cbn [rev app]. now destruct x.
Qed.
Lemma front_hd : forall l, l <> [] -> front l = Done (snd (hd d l)).
Proof. intros [|[i a] l] H; [congruence|reflexivity]. Qed.

Lemma splice_from_front : forall l p k x l', index l p = Some k -> splice_from l p (x :: l') (begin_ (x :: l')) = Done (insert_at k x l, l').
Proof.
  intros l p k [i a] l' H. unfold splice_from. rewrite H. cbn [begin_ pos_at nth_error index find_index]. unfold begin_, pos_at. cbn [nth_error index find_index]. rewrite Nat.eqb_refl. reflexivity.
Qed.
Lemma insert_at_end : forall l x, insert_at (length l) x l = l ++ [x].
Proof. intros. unfold insert_at. now rewrite firstn_all, skipn_all. Qed.

Lemma mel_add_done : forall L x l, L <> [] -> enc L -> uniq (concat L ++ x :: l) ->
  exists L', mel_add comp proj L (x :: l) = Done (L', l) /\ L' <> [] /\ enc L' /\ Permutation (concat L') (concat L ++ [x]).
Proof.
  intros L x l HL HE U. unfold mel_add. destruct x as [i a]. cbn [front andthen].
  destruct L as [|l1 L0 _] using rev_ind; [congruence|]. clear HL. rewrite app_length, Nat.add_1_r. cbn [Nat.sub]. rewrite Nat.sub_0_r.
  rewrite vector_at_split. cbn [andthen].
  assert (N1 : forall c, In c (L0 ++ [l1]) -> c <> []) by (destruct HE as [HE _]; rewrite Forall_forall in HE; auto).
  rewrite back_last by (apply N1, in_or_app; right; now left). cbn [andthen].
  assert (UL : forall c, In c (L0 ++ [l1]) -> uniq c).
  { intros c Hc. apply in_split in Hc as (c1 & c2 & Hc). rewrite Hc, concat_app in U. cbn [concat] in U. rewrite <- !app_assoc in U.
    apply uniq_app in U as [_ U]. now apply uniq_app in U. }
  destruct (comp (proj a) (proj (snd (last l1 d)))) eqn:CB; cbn [negb].
  - rewrite front_hd by (apply N1, in_or_app; right; now left). cbn [andthen].
    destruct (comp (proj (snd (hd d l1))) (proj a)) eqn:CF; cbn [negb].
    + rewrite (splice_from_front [] End 0) by reflexivity. cbn [andthen]. eexists. split; [reflexivity|]. split; [now destruct (L0 ++ [l1])|].
      split; [now apply enc_new|]. rewrite concat_app. reflexivity.
    + destruct (vector_lower_bound_done _ comp front (fun c => snd (hd d c)) (L0 ++ [l1]) (length L0) (proj a)) as (k & -> & Hk & K1 & K2).
      * rewrite app_length. lia.
      * intros c Hc. apply front_hd; auto.
      * intros p q b c Hpq Hq B C. destruct HE as (_ & _ & HE & _). intros Hlt.
        apply (le_lt_trans ltn ltn_order (hd d b) (hd d c) (i, a)); auto. apply (HE p q); auto using map_nth_error.
      * cbn [andthen]. destruct (split_at _ (L0 ++ [l1]) k) as (v1 & c & v2 & Ev & <-). { rewrite app_length. simpl. lia. }
        assert (HN : nth_error (L0 ++ [l1]) (length v1) = Some c). { rewrite Ev. rewrite nth_error_app2, Nat.sub_diag by lia. reflexivity. }
        assert (HB : ltn (hd d c) (i, a) = false).
        { destruct (Nat.eq_dec (length v1) (length L0)) as [EL|NL].
          - rewrite EL, nth_error_app2, Nat.sub_diag in HN by lia. cbn in HN. injection HN as <-. exact CF.
          - apply (K2 ltac:(lia) c HN). }
        rewrite Ev in *. rewrite vector_at_split. cbn [andthen].
        rewrite (splice_from_front c (begin_ c) 0). 2: { apply index_pos_at; [|lia]. apply UL. apply in_or_app. right. now left. }
        cbn [andthen]. rewrite vector_set_split. eexists. split; [reflexivity|]. split; [now destruct v1|].
        change (insert_at 0 (i, a) c) with ((i, a) :: c). split.
        -- apply enc_push_front; auto.
           intros l' Hl'. apply In_nth_error in Hl' as (j & Hj). assert (j < length v1) by (apply nth_error_Some; congruence).
              apply (K1 j l'); auto. rewrite nth_error_app1; auto.
        -- rewrite !concat_app. cbn [concat]. rewrite <- app_comm_cons, <- Permutation_middle. apply Permutation_cons_append.
  - destruct (vector_lower_bound_done _ (fun x y => comp y x) back (fun c => snd (last c d)) (L0 ++ [l1]) (length L0) (proj a)) as (k & -> & Hk & K1 & K2).
    + rewrite app_length. lia.
    + intros c Hc. apply back_last; auto.
    + intros p q b c Hpq Hq B C. destruct HE as (_ & _ & _ & HE). intros Hlt.
      apply (lt_le_trans ltn ltn_order (i, a) (last c d) (last b d)); auto. apply (HE p q (last b d) (last c d) Hpq).
      * apply (map_nth_error (fun l => last l d) _ _ B). * apply (map_nth_error (fun l => last l d) _ _ C).
    + cbn [andthen]. destruct (split_at _ (L0 ++ [l1]) k) as (v1 & c & v2 & Ev & <-). { rewrite app_length. simpl. lia. }
      assert (HN : nth_error (L0 ++ [l1]) (length v1) = Some c). { rewrite Ev. rewrite nth_error_app2, Nat.sub_diag by lia. reflexivity. }
      assert (HB : ltn (i, a) (last c d) = false).
      { destruct (Nat.eq_dec (length v1) (length L0)) as [EL|NL].
        - rewrite EL, nth_error_app2, Nat.sub_diag in HN by lia. cbn in HN. injection HN as <-. exact CB.
        - apply (K2 ltac:(lia) c HN). }
      rewrite Ev in *. rewrite vector_at_split. cbn [andthen].
      rewrite (splice_from_front c End (length c)) by reflexivity. cbn [andthen]. rewrite vector_set_split, insert_at_end. eexists. split; [reflexivity|].
      split; [now destruct v1|]. split.
      * apply enc_push_back; auto. intros l' Hl'. apply In_nth_error in Hl' as (j & Hj). assert (j < length v1) by (apply nth_error_Some; congruence).
        apply (K1 j l'); auto. rewrite nth_error_app1; auto.
      * rewrite !concat_app. cbn [concat]. rewrite <- !app_assoc. apply Permutation_app_head. apply Permutation_app_head. apply Permutation_app_comm.
Qed.

(** The merges. *)
Notation merged L L' := (Permutation (concat L) (concat L') /\ Forall (sorted ltn) L').

Lemma mel_merge_halves_done : forall L half, length L = half + half -> Forall (sorted ltn) L ->
  exists L', mel_merge_halves comp proj L half = Done L' /\ length L' = length L /\ merged L L' /\ (forall j, j < half -> nth_error L' (half + j) = Some []).
Proof.
  intros L half HL HS. unfold mel_merge_halves.
  apply (iter_rule (list (list (node A)) * nat) (list (list (node A)))) with (mu := fun s : list (list (node A)) * nat => half - snd s)
    (Inv := fun s : list (list (node A)) * nat => length (fst s) = length L /\ snd s <= half /\ merged L (fst s) /\ forall j, j < snd s -> nth_error (fst s) (half + j) = Some [])
    (Q := fun L' => length L' = length L /\ merged L L' /\ (forall j, j < half -> nth_error L' (half + j) = Some [])).
  - intros [v i] (H1 & H2 & (H3 & H4) & H5). cbn [fst snd] in *. destruct (half + i =? length v) eqn:E.
    + apply Nat.eqb_eq in E. assert (i = half) as -> by lia. auto.
    + apply Nat.eqb_neq in E. unfold vector_at. destruct (nth_error v i) as [a|] eqn:N1; [|apply nth_error_None in N1; lia].
      destruct (nth_error v (half + i)) as [b|] eqn:N2; [|apply nth_error_None in N2; lia]. cbn [andthen].
      rewrite Forall_forall in H4. pose proof (H4 a (nth_error_In _ _ N1)) as Sa. pose proof (H4 b (nth_error_In _ _ N2)) as Sb. rewrite <- Forall_forall in H4.
      change (less comp proj) with lt. rewrite merge_with_done by (auto using swo_by_proj). cbn [andthen fst snd].
      assert (L1 : length (vector_set v (half + i) []) = length v) by (apply vector_set_length; lia).
      split; [|lia]. split; [rewrite vector_set_length by lia; lia|]. split; [lia|]. split; [split|].
      * rewrite H3. apply (Permutation_app_inv_l a). 
        rewrite (concat_set _ (vector_set v (half + i) []) i a) by (rewrite nth_set_other by lia; auto).
        rewrite <- (merge_perm ltn a b), <- app_assoc. apply Permutation_app_head. symmetry. exact (concat_set _ v (half + i) b [] N2).
      * apply vector_set_Forall; [lia| |]. { apply vector_set_Forall; [lia|auto|]. apply sorted_nil. }
        now apply merge_sorted; [apply ltn_order|..].
      * intros j Hj. rewrite nth_set_other by lia. destruct (Nat.eq_dec j i) as [->|]; [apply nth_set_same; lia|]. rewrite nth_set_other by lia. apply H5. lia.
  - cbn [fst snd]. repeat split; auto; lia.
  - cbn [snd]. lia.
Qed.

Lemma concat_firstn : forall L k, (forall j, k + j < length L -> nth_error L (k + j) = Some []) -> concat L = concat (firstn k L).
Proof.
  induction L as [|l L IH]; intros k H; [now rewrite firstn_nil|]. destruct k as [|k].
  - specialize (H 0) as H0. cbn in H0. specialize (H0 ltac:(lia)). injection H0 as ->. cbn [firstn concat app]. apply (IH 0). intros j Hj. apply (H (S j)). cbn [length]. cbn in Hj. lia.
  - cbn [firstn concat]. f_equal. apply IH. intros j Hj. apply (H j). cbn [length]. lia.
Qed.

Lemma mel_merge_done : forall L, L <> [] -> Forall (sorted ltn) L -> exists l, mel_merge comp proj L = Done [l] /\ Permutation (concat L) l /\ sorted ltn l.
Proof.
  intros L HL HS. unfold mel_merge.
  cut (exists L', mel_merge comp proj L = Done L' /\ exists l, L' = [l] /\ Permutation (concat L) l /\ sorted ltn l).
  { intros (L' & E & l & -> & H). exists l. auto. }
  apply (iter_rule (list (list (node A))) (list (list (node A)))) with (mu := fun v : list (list (node A)) => length v)
    (Inv := fun v : list (list (node A)) => v <> [] /\ merged L v).
  - intros v (H1 & H2 & H3). destruct (1 <? length v) eqn:E.
    + apply Nat.ltb_lt in E.
      assert (exists v', (if negb (length v mod 2 =? 0) then
           let! last := vector_at v (length v - 1) in
           let! last_1 := vector_at v (length v - 2) in
           let! merged := merge_with (less comp proj) last_1 last in
           Done (removelast (vector_set v (length v - 2) merged))
         else Done v) = Done v' /\ merged L v' /\ length v' = 2 * (length v / 2)) as (v' & -> & (P1 & P2) & P3).
      { pose proof (Nat.div_mod (length v) 2 ltac:(lia)) as D. pose proof (Nat.mod_upper_bound (length v) 2 ltac:(lia)).
        destruct (length v mod 2 =? 0) eqn:M; cbn [negb].
        - apply Nat.eqb_eq in M. exists v. repeat split; auto. lia.
        - apply Nat.eqb_neq in M. destruct v as [|b v _] using rev_ind; [congruence|]. destruct v as [|a v _] using rev_ind; [cbn in E; lia|].
          rewrite !app_length in *. cbn [length] in *. replace (length v + 1 + 1 - 1) with (length (v ++ [a])) by (rewrite app_length; cbn; lia).
          replace (length v + 1 + 1 - 2) with (length v) by lia. rewrite vector_at_split. cbn [andthen]. rewrite <- app_assoc in *. cbn [app] in *. rewrite vector_at_split. cbn [andthen].
          apply Forall_app in H3 as [H3 H4]. apply Forall_cons_iff in H4 as [H4 H5]. apply Forall_cons_iff in H5 as [H5 _].
          change (less comp proj) with lt. rewrite merge_with_done by (auto using swo_by_proj). cbn [andthen]. rewrite vector_set_split.
          eexists. split; [reflexivity|]. replace (v ++ [merge ltn a b; b]) with ((v ++ [merge ltn a b]) ++ [b]) by (now rewrite <- app_assoc). rewrite removelast_last.
          split; [split|].
          + rewrite H2, !concat_app. cbn [concat]. rewrite !app_nil_r. apply Permutation_app_head, merge_perm.
          + apply Forall_app. split; auto. constructor; auto. apply merge_sorted; auto using ltn_order.
          + rewrite app_length. cbn [length]. lia. }
      cbn [andthen]. replace (length v' / 2) with (length v / 2) by (rewrite P3, Nat.mul_comm, Nat.div_mul; lia).
      destruct (mel_merge_halves_done v' (length v / 2)) as (w & -> & W1 & (W2 & W3) & W4); [lia|auto|]. cbn [andthen].
      replace (length w / 2) with (length v / 2) by (rewrite W1, P3, Nat.mul_comm, Nat.div_mul; lia).
      pose proof (Nat.div_str_pos (length v) 2 ltac:(lia)). pose proof (half_lt (length v) ltac:(lia)).
      assert (LF : length (firstn (length v / 2) w) = length v / 2) by (rewrite firstn_length; lia).
      split; [split; [|split]|].
      * intros Ew. rewrite Ew in LF. cbn [length] in LF. lia.
      * rewrite P1, W2. rewrite (concat_firstn w (length v / 2)); auto. intros j Hj. apply W4. lia.
      * rewrite <- (firstn_skipn (length v / 2) w) in W3. now apply Forall_app in W3.
      * lia.
    + apply Nat.ltb_ge in E. destruct v as [|l [|? ?]]; [congruence| |cbn in E; lia]. exists l. split; auto. split; [now rewrite H2; cbn [concat]; rewrite app_nil_r|]. now apply Forall_cons_iff in H3.
  - auto.
  - lia.
Qed.

(** detail/container_aware/mel_sort.h:32-100. *)
Lemma mel_adds_done : forall x l, d = x -> uniq (x :: l) -> exists L,
  iter (S (length l)) (fun '(lists, l) =>
    match l with
    | [] => Done (inr lists)
    | _ => let! (lists, l) := mel_add comp proj lists l in Done (inl (lists, l))
    end) ([[x]], l) = Done L /\ L <> [] /\ enc L /\ Permutation (concat L) (x :: l).
Proof.
  intros x l Ed U.
  apply (iter_rule (list (list (node A)) * list (node A)) (list (list (node A)))) with (mu := fun s : list (list (node A)) * list (node A) => length (snd s))
    (Inv := fun s : list (list (node A)) * list (node A) => fst s <> [] /\ enc (fst s) /\ Permutation (concat (fst s) ++ snd s) (x :: l))
    (Q := fun L => L <> [] /\ enc L /\ Permutation (concat L) (x :: l)).
  - intros [v [|y r]] (H1 & H2 & H3); cbn [fst snd] in *. { rewrite app_nil_r in H3. auto. }
    destruct (mel_add_done v y r H1 H2) as (v' & -> & V1 & V2 & V3). { eapply uniq_perm; [symmetry; exact H3 | exact U]. }
    cbn [andthen fst snd]. split; [|cbn; lia]. split; [auto|]. split; [auto|]. rewrite V3, <- app_assoc. exact H3.
  - cbn [fst snd]. split; [discriminate|]. split; [|reflexivity]. split; [|split; [|split]]; repeat constructor; try discriminate; cbn [map]; apply sorted_one.
  - cbn [snd]. lia.
Qed.
End Proofs.

Section Sorts.
Context {A T : Type} (comp : T -> T -> bool) (proj : A -> T).
Hypothesis HC : strict_weak_order comp.
Notation lt := (by_proj comp proj).
Notation ltn := (by_value lt).

Theorem list_mel_sort_sorts : sorts_list lt (list_mel_sort comp proj).
Proof.
  intros l U. unfold list_mel_sort. destruct (length l <? 2) eqn:E.
  { apply Nat.ltb_lt in E. exists l. split; auto. split; [reflexivity|]. destruct l as [|x [|y l]]; [apply sorted_nil | apply sorted_one | cbn in E; lia]. }
  destruct l as [|x l]; [discriminate|]. rewrite splice_from_front with (k := 0) by reflexivity. cbn [andthen].
  change (insert_at 0 x []) with [x]. destruct (mel_adds_done comp proj HC x x l eq_refl U) as (L & -> & L1 & L2 & L3). cbn [andthen].
  destruct (mel_merge_done comp proj HC L L1) as (r & -> & R1 & R2); [apply L2|]. cbn [andthen]. exists r. split; [reflexivity|]. split; [|exact R2].
  now rewrite <- L3.
Qed.

(** The last elements kept with the lists. *)
Definition wf (t : list (node A) * pos) : Prop := uniq (fst t) /\ fst t <> [] /\ snd t = pos_at (fst t) (length (fst t) - 1).

Lemma iter_ext : forall S X (f g : S -> out (S + X)), (forall s, f s = g s) -> forall fuel s, iter fuel f s = iter fuel g s.
Proof. intros S X f g H fuel. induction fuel as [|fuel IH]; intros s; auto. cbn [iter]. rewrite H. destruct (g s) as [[?|?]| |]; cbn [andthen]; auto. Qed.

Lemma vector_at_map : forall X Y (g : X -> Y) v i, vector_at (map g v) i = (let! c := vector_at v i in Done (g c)).
Proof. intros. unfold vector_at. rewrite nth_error_map. now destruct (nth_error v i). Qed.
Lemma vector_set_map : forall X Y (g : X -> Y) v i c, vector_set (map g v) i (g c) = map g (vector_set v i c).
Proof. intros. unfold vector_set. now rewrite map_app, firstn_map, map_cons, skipn_map. Qed.

Lemma vector_lower_bound_map : forall X Y (g : X -> Y) cmp key key' v last value, (forall c, In c v -> key c = key' (g c)) ->
  vector_lower_bound proj cmp key v last value = vector_lower_bound proj cmp key' (map g v) last value.
Proof.
  intros X Y g cmp key key' v last value H. unfold vector_lower_bound. apply iter_ext. intros [a n]. destruct (0 <? n); auto.
  rewrite vector_at_map. unfold vector_at. destruct (nth_error v (a + n / 2)) eqn:N; cbn [andthen]; auto. rewrite H by (eapply nth_error_In; eauto). reflexivity.
Qed.

Lemma wf_back : forall t, wf t -> deref (fst t) (snd t) = back (fst t).
Proof.
  intros [l p] (U & N & ->). cbn [fst snd] in *. destruct l as [|[i a] l _] using rev_ind; [congruence|]. rewrite app_length, Nat.add_1_r. cbn [Nat.sub]. rewrite Nat.sub_0_r.
  rewrite (deref_pos_at _ _ i a) by (auto; apply nth_mid). unfold back. rewrite rev_app_distr. reflexivity.
Qed.

Lemma pos_at_snoc : forall (l : list (node A)) x k, k < length l -> pos_at (l ++ [x]) k = pos_at l k.
Proof. intros l x k H. unfold pos_at. now rewrite nth_error_app1. Qed.
Lemma pos_at_cons : forall (l : list (node A)) x k, pos_at (x :: l) (S k) = pos_at l k.
Proof. reflexivity. Qed.

(** Adding to the lists with their last elements is adding to the lists. *)
Lemma flist_mel_add_tracks : forall F x l L', F <> [] -> Forall wf F -> uniq (concat (map fst F) ++ x :: l) ->
  mel_add comp proj (map fst F) (x :: l) = Done (L', l) -> exists F', flist_mel_add comp proj F (x :: l) = Done (F', l) /\ Forall wf F' /\ L' = map fst F'.
Proof.
  intros F [i a] l L' HF HW U. unfold mel_add, flist_mel_add. cbn [front andthen]. rewrite map_length, !vector_at_map.
  assert (H1 : length F - 1 < length F) by (destruct F; [congruence|cbn; lia]). 
  destruct (nth_error F (length F - 1)) as [[l1 p1]|] eqn:N; [|apply nth_error_None in N; lia].
  assert (EV : vector_at F (length F - 1) = Done (l1, p1)) by (unfold vector_at; now rewrite N). unfold flist in *. rewrite !EV. cbn [andthen fst snd].
  pose proof HW as HW'. rewrite Forall_forall in HW'. pose proof (HW' _ (nth_error_In _ _ N)) as W1. pose proof (wf_back _ W1) as WB. cbn [fst snd] in WB. rewrite WB.
  assert (UX : forall t, In t F -> uniq ((i, a) :: fst t)).
  { intros t Ht. apply in_split in Ht as (F1 & F2 & ->). rewrite map_app, concat_app in U. cbn [map concat] in U. rewrite <- !app_assoc in U. apply uniq_app in U as [_ U].
    eapply uniq_perm in U; [|apply Permutation_app_head; apply Permutation_app_comm]. cbn [app] in U.
    eapply uniq_perm in U; [|symmetry; apply Permutation_middle]. cbn [app] in U. rewrite app_comm_cons in U. now apply uniq_app in U. }
  destruct (back l1) as [b| |]; cbn [andthen]; try discriminate. destruct (negb (comp (proj a) (proj b))).
  - rewrite (vector_lower_bound_map _ _ fst (fun x y => comp y x) (fun t => deref (fst t) (snd t)) back) by (intros; apply wf_back; auto).
    destruct (vector_lower_bound proj (fun x y => comp y x) back (map fst F) (length F - 1) (proj a)) as [k| |]; cbn [andthen]; try discriminate.
    rewrite vector_at_map. unfold vector_at. destruct (nth_error F k) as [[t p]|] eqn:Nk; cbn [andthen fst]; try discriminate.
    assert (Hk : k < length F) by (apply nth_error_Some; congruence).
    pose proof (HW' _ (nth_error_In _ _ Nk)) as (T1 & T2 & T3). pose proof (UX _ (nth_error_In _ _ Nk)) as T4. cbn [fst snd] in *. subst p.
    rewrite splice_from_front with (k := length t) by reflexivity. cbn [andthen]. rewrite insert_at_end. intros [= <-].
    unfold splice_after_from. destruct t as [|y t _] using rev_ind; [congruence|]. rewrite app_length, Nat.add_1_r. cbn [Nat.sub]. rewrite Nat.sub_0_r.
    change (pos_at (t ++ [y]) (length t)) with (fpos (t ++ [y]) (S (length t))). rewrite index_after_fpos by (auto; rewrite app_length; cbn; lia).
    assert (EI : insert_at (S (length t)) (i, a) (t ++ [y]) = (t ++ [y]) ++ [(i, a)]) by (rewrite <- (insert_at_end (t ++ [y])), app_length, Nat.add_1_r; reflexivity).
    cbn [index_after nth_error andthen]. rewrite EI.
    cbn [fpos]. assert (U2 : uniq ((t ++ [y]) ++ [(i, a)])) by (eapply uniq_perm; [|exact T4]; apply Permutation_cons_append).
    assert (L2 : length ((t ++ [y]) ++ [(i, a)]) = S (S (length t))) by (rewrite !app_length; cbn; lia).
    rewrite <- (pos_at_snoc (t ++ [y]) (i, a)) by (rewrite app_length; cbn; lia). rewrite next_pos_at by (auto; lia). cbn [andthen].
    eexists. split; [reflexivity|]. split.
    + apply vector_set_Forall; auto. split; [exact U2|]. split; [cbn [fst]; now destruct (t ++ [y])|]. cbn [fst snd]. rewrite L2. reflexivity.
    + now rewrite <- vector_set_map.
  - destruct (front l1) as [f| |]; cbn [andthen]; try discriminate. destruct (negb (comp (proj f) (proj a))).
    + rewrite (vector_lower_bound_map _ _ fst comp (fun t => front (fst t)) front) by reflexivity.
      destruct (vector_lower_bound proj comp front (map fst F) (length F - 1) (proj a)) as [k| |]; cbn [andthen]; try discriminate.
      rewrite vector_at_map. unfold vector_at. destruct (nth_error F k) as [[t p]|] eqn:Nk; cbn [andthen fst]; try discriminate.
      assert (Hk : k < length F) by (apply nth_error_Some; congruence).
      pose proof (HW' _ (nth_error_In _ _ Nk)) as (T1 & T2 & T3). pose proof (UX _ (nth_error_In _ _ Nk)) as T4. cbn [fst snd] in *. subst p.
      rewrite splice_from_front with (k := 0) by (apply index_pos_at; auto; lia). cbn [andthen]. intros [= <-].
      unfold splice_after_from. cbn [index_after nth_error andthen]. eexists. split; [reflexivity|]. split.
      * apply vector_set_Forall; auto. split; [exact T4|]. split; [discriminate|]. cbn [fst snd]. change (insert_at 0 (i, a) t) with ((i, a) :: t). cbn [length].
        rewrite Nat.sub_succ, Nat.sub_0_r. destruct t as [|y t]; [congruence|]. cbn [length]. rewrite pos_at_cons. f_equal. lia.
      * now rewrite <- vector_set_map.
    + rewrite splice_from_front with (k := 0) by reflexivity. cbn [andthen]. intros [= <-]. unfold splice_after_from. cbn [index_after nth_error andthen].
      eexists. split; [reflexivity|]. split; [|now rewrite map_app]. apply Forall_app. split; auto. constructor; auto. split; [|split; [discriminate|reflexivity]].
      cbn. repeat constructor. intros [].
Qed.

Theorem flist_mel_sort_sorts : sorts_list lt (flist_mel_sort comp proj).
Proof.
  intros l U. unfold flist_mel_sort.
  assert (E : (let! second := (if pos_eqb (begin_ l) End then Done End else next l (begin_ l)) in Done (pos_eqb second End)) = Done (length l <? 2)).
  { unfold begin_. destruct l as [|x l]; [reflexivity|]. rewrite pos_at_eqb_end. cbn [length Nat.leb]. rewrite next_pos_at by (auto; cbn; lia). cbn [andthen].
    rewrite pos_at_eqb_end. cbn [length]. f_equal. }
  destruct (if pos_eqb (begin_ l) End then Done End else next l (begin_ l)) as [second| |]; cbn [andthen] in *; try discriminate. injection E as E. rewrite E. clear E.
  destruct (length l <? 2) eqn:E.
  { apply Nat.ltb_lt in E. exists l. split; auto. split; [reflexivity|]. destruct l as [|x [|y l]]; [apply sorted_nil | apply sorted_one | cbn in E; lia]. }
  destruct l as [|x l]; [discriminate|]. unfold splice_after_from. cbn [index_after nth_error andthen]. change (insert_at 0 x []) with [x]. change (remove_at 0 (x :: l)) with l.
  cut (exists F, iter (S (length l)) (fun '(lists, l) =>
    match l with
    | [] => Done (inr lists)
    | _ => let! (lists, l) := flist_mel_add comp proj lists l in Done (inl (lists, l))
    end) ([([x], begin_ [x])], l) = Done F /\ map fst F <> [] /\ enc comp proj x (map fst F) /\ Permutation (concat (map fst F)) (x :: l)).
  { intros (F & -> & F1 & F2 & F3). cbn [andthen]. destruct (mel_merge_done comp proj HC (map fst F) F1) as (r & -> & R1 & R2); [apply F2|]. cbn [andthen]. exists r. split; [reflexivity|].
    split; [|exact R2]. now rewrite <- F3. }
  apply (iter_rule (list (flist (A := A)) * list (node A)) (list (flist (A := A)))) with (mu := fun s : list (flist (A := A)) * list (node A) => length (snd s))
    (Inv := fun s : list (flist (A := A)) * list (node A) => Forall wf (fst s) /\ map fst (fst s) <> [] /\ enc comp proj x (map fst (fst s)) /\ Permutation (concat (map fst (fst s)) ++ snd s) (x :: l))
    (Q := fun F : list (flist (A := A)) => map fst F <> [] /\ enc comp proj x (map fst F) /\ Permutation (concat (map fst F)) (x :: l)).
  - intros [v [|y r]] (H0 & H1 & H2 & H3); cbn [fst snd] in *. { rewrite app_nil_r in H3. auto. }
    assert (U' : uniq (concat (map fst v) ++ y :: r)) by (eapply uniq_perm; [symmetry; exact H3 | exact U]).
    destruct (mel_add_done comp proj HC x (map fst v) y r H1 H2 U') as (v' & EA & V1 & V2 & V3).
    destruct (flist_mel_add_tracks v y r v') as (F' & -> & F1 & ->); auto. { intros ->. now apply H1. }
    cbn [andthen fst snd]. split; [|cbn; lia]. split; [auto|]. split; [auto|]. split; [auto|]. rewrite V3, <- app_assoc. exact H3.
  - cbn [fst snd map]. split. { constructor; auto. split; [|split; [discriminate|reflexivity]]. cbn. repeat constructor. intros []. }
    split; [discriminate|]. split; [|reflexivity]. split; [|split; [|split]]; repeat constructor; try discriminate; cbn [map]; apply sorted_one.
  - cbn [snd]. lia.
Qed.
End Sorts.
