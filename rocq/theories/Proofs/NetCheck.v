(** A verified checker for comparator networks.

    The set of reachable 0-1 vectors is kept as one decision tree per wire, over shared boolean
    variables; a comparator is a conjunction and a disjunction of two trees.  A plan may reorder
    comparators that touch different wires, and may at any point replace the trees of some wires by
    a fresh parametrization of every vector that satisfies a list of (checked) order relations
    between these wires. *)
From Coq Require Import List Arith Lia Bool NArith PArith.
From Verif Require Import Lang.Mem Proofs.Wp Proofs.NetLib.
Import ListNotations.

Inductive bdd := F | T | Nd (v : positive) (l h : bdd).

Fixpoint eval (e : positive -> bool) (t : bdd) : bool :=
  match t with
  | F => false
  | T => true
  | Nd v l h => if e v then eval e h else eval e l
  end.

Definition mk (v : positive) (l h : bdd) : bdd :=
  match l, h with
  | F, F => F
  | T, T => T
  | _, _ => Nd v l h
  end.

Lemma mk_eval : forall e v l h, eval e (mk v l h) = if e v then eval e h else eval e l.
Proof. intros e v [| |] [| |]; simpl; destruct (e v); auto. Qed.

Fixpoint band (a : bdd) : bdd -> bdd :=
  match a with
  | F => fun _ => F
  | T => fun b => b
  | Nd v l h =>
      fix go (b : bdd) : bdd :=
        match b with
        | F => F
        | T => a
        | Nd w l' h' =>
            match Pos.compare v w with
            | Eq => mk v (band l l') (band h h')
            | Lt => mk v (band l b) (band h b)
            | Gt => mk w (go l') (go h')
            end
        end
  end.

Fixpoint bor (a : bdd) : bdd -> bdd :=
  match a with
  | T => fun _ => T
  | F => fun b => b
  | Nd v l h =>
      fix go (b : bdd) : bdd :=
        match b with
        | T => T
        | F => a
        | Nd w l' h' =>
            match Pos.compare v w with
            | Eq => mk v (bor l l') (bor h h')
            | Lt => mk v (bor l b) (bor h b)
            | Gt => mk w (go l') (go h')
            end
        end
  end.

(** [ble a b]: [a] implies [b]. *)
Fixpoint ble (a : bdd) : bdd -> bool :=
  match a with
  | F => fun _ => true
  | T => fix go (b : bdd) : bool :=
      match b with F => false | T => true | Nd _ l h => if go l then go h else false end
  | Nd v l h =>
      fix go (b : bdd) : bool :=
        match b with
        | T => true
        | F => if ble l F then ble h F else false
        | Nd w l' h' =>
            match Pos.compare v w with
            | Eq => if ble l l' then ble h h' else false
            | Lt => if ble l b then ble h b else false
            | Gt => if go l' then go h' else false
            end
        end
  end.

Lemma band_eval : forall e a b, eval e (band a b) = eval e a && eval e b.
Proof.
  intros e. induction a as [| |v l IHl h IHh]; [reflexivity|reflexivity|].
  induction b as [| |w l' IHl' h' IHh'].
  - simpl. now rewrite andb_false_r.
  - simpl. now rewrite andb_true_r.
  - cbn [band]. destruct (Pos.compare_spec v w) as [E|E|E].
    + subst w. rewrite mk_eval, IHl, IHh. simpl. destruct (e v); auto.
    + rewrite mk_eval, IHl, IHh. simpl. destruct (e v); auto.
    + rewrite mk_eval. simpl in IHl', IHh'. rewrite IHl', IHh'. simpl.
      destruct (e w); auto.
Qed.

Lemma bor_eval : forall e a b, eval e (bor a b) = eval e a || eval e b.
Proof.
  intros e. induction a as [| |v l IHl h IHh]; [reflexivity|reflexivity|].
  induction b as [| |w l' IHl' h' IHh'].
  - simpl. now rewrite orb_false_r.
  - simpl. now rewrite orb_true_r.
  - cbn [bor]. destruct (Pos.compare_spec v w) as [E|E|E].
    + subst w. rewrite mk_eval, IHl, IHh. simpl. destruct (e v); auto.
    + rewrite mk_eval, IHl, IHh. simpl. destruct (e v); auto.
    + rewrite mk_eval. simpl in IHl', IHh'. rewrite IHl', IHh'. simpl.
      destruct (e w); auto.
Qed.

Lemma if_andb : forall a b : bool, (if a then b else false) = true -> a = true /\ b = true.
Proof. intros [|] [|]; auto. Qed.

Lemma ble_eval : forall e a b, ble a b = true -> eval e a = true -> eval e b = true.
Proof.
  intros e. induction a as [| |v l IHl h IHh]; intros b.
  - discriminate.
  - induction b as [| |w l' IHl' h' IHh']; simpl; auto.
    intros H _. apply if_andb in H as [? ?]. destruct (e w); auto.
  - induction b as [| |w l' IHl' h' IHh'].
    + simpl. intros H. apply if_andb in H as [? ?]. destruct (e v); intros; [apply (IHh F)|apply (IHl F)]; auto.
    + auto.
    + cbn [ble]. destruct (Pos.compare_spec v w) as [E|E|E]; intros H; apply if_andb in H as [H1 H2].
      * subst w. simpl. destruct (e v); intros; [eapply IHh|eapply IHl]; eauto.
      * simpl eval at 1. destruct (e v); intros; [eapply IHh|eapply IHl]; eauto.
      * simpl eval at 2. destruct (e w); intros; [eapply IHh'|eapply IHl']; eauto.
Qed.

Lemma nth_map_seq : forall X (g : nat -> X) n k d, k < n -> nth k (map g (seq 0 n)) d = g k.
Proof.
  intros X g n k d Hk. rewrite nth_indep with (d' := g 0) by (rewrite map_length, seq_length; auto).
  rewrite map_nth, seq_nth by auto. reflexivity.
Qed.

(** ** State *)
Definition covers (n : nat) (cols : list bdd) (v : nat -> bool) : Prop :=
  exists e, forall k, k < n -> eval e (nth k cols F) = v k.

Definition init (n : nat) (base : positive) : list bdd :=
  map (fun k => Nd (base + Pos.of_succ_nat k) F T) (seq 0 n).

Lemma init_covers : forall n base v, covers n (init n base) v.
Proof.
  intros n base v. exists (fun p => v (Pos.to_nat p - Pos.to_nat base - 1)). intros k Hk. unfold init.
  rewrite nth_map_seq by auto. simpl eval. rewrite Pos2Nat.inj_add, SuccNat2Pos.id_succ.
  replace (Pos.to_nat base + S k - Pos.to_nat base - 1) with k by lia.
  destruct (v k); auto.
Qed.

Definition cmp (a b : nat) (cols : list bdd) : list bdd :=
  let ca := nth a cols F in
  let cb := nth b cols F in
  upd b (bor ca cb) (upd a (band ca cb) cols).

Lemma nth_upd_dflt : forall X i j (x d : X) l,
  nth j (upd i x l) d = if i =? j then (if j <? length l then x else d) else nth j l d.
Proof.
  intros X i j x d l.
  pose proof (nth_upd i j x l) as H.
  assert (forall (l : list X), nth j l d = match nth_error l j with Some y => y | None => d end) as E.
  { clear. intros l. revert j. induction l; destruct j; simpl; auto. }
  rewrite !E, H. destruct (i =? j); auto. destruct (j <? length l); auto.
Qed.

Lemma cmp_covers : forall n a b cols v, length cols = n -> a < b -> b < n ->
  covers n cols v -> covers n (cmp a b cols) (bcx (a, b) v).
Proof.
  intros n a b cols v HL Ha Hb (e & He). exists e. intros k Hk. unfold cmp, bcx.
  rewrite !nth_upd_dflt, !upd_length.
  rewrite (Nat.eqb_sym b k), (Nat.eqb_sym a k).
  destruct (Nat.eqb_spec k b) as [->|Hkb].
  - destruct (Nat.eqb_spec b a); [lia|]. destruct (Nat.ltb_spec b (length cols)); [|lia].
    rewrite bor_eval, !He by lia. auto.
  - destruct (Nat.eqb_spec k a) as [->|Hka]; [|auto].
    destruct (Nat.ltb_spec a (length cols)); [|lia].
    rewrite band_eval, !He by lia. auto.
Qed.

(** ** Reparametrization *)
Definition ltab (l : list N) (w : N) : N := nth (N.to_nat w) l 0%N.

(** Up-sets (masks) from the edges. *)
Definition unit_masks (n : nat) : list N := map (fun k => N.shiftl 1 (N.of_nat k)) (seq 0 n).

Definition ups (n : nat) (edges : list (N * N)) : list N :=
  fold_right (fun '(a, b) l => upd (N.to_nat a) (N.lor (ltab l a) (ltab l b)) l) (unit_masks n) edges.

Definition dns (n : nat) (edges : list (N * N)) : list N :=
  fold_left (fun l '(a, b) => upd (N.to_nat b) (N.lor (ltab l b) (ltab l a)) l) edges (unit_masks n).

Inductive vtree := VL (t : N) | VN (x : positive) (l h : vtree).

Fixpoint build (up dn : list N) (ws : list N) (prio : list N) (t f : N) (x : positive) : option vtree :=
  match prio with
  | [] => if forallb (fun w => N.testbit (N.lor t f) w) ws then Some (VL t) else None
  | w :: prio =>
      if N.testbit (N.lor t f) w then build up dn ws prio t f x
      else
        match build up dn ws prio t (N.lor f (ltab dn w)) (Pos.succ x) with
        | None => None
        | Some l =>
            match build up dn ws prio (N.lor t (ltab up w)) f (Pos.succ x) with
            | None => None
            | Some h => Some (VN x l h)
            end
        end
  end.

Fixpoint column (w : N) (t : vtree) : bdd :=
  match t with
  | VL t => if N.testbit t w then T else F
  | VN x l h => mk x (column w l) (column w h)
  end.

(** Every variable of the tree is below [lo] or at least [hi]. *)
Fixpoint outside (lo hi : positive) (t : bdd) : bool :=
  match t with
  | F | T => true
  | Nd x l h => if Pos.ltb x lo || Pos.leb hi x then (if outside lo hi l then outside lo hi h else false) else false
  end.

Definition plus_len (x : positive) (l : list N) : positive := fold_left (fun x _ => Pos.succ x) l x.

Fixpoint others_outside (lo hi : positive) (mask : N) (k : N) (cols : list bdd) : bool :=
  match cols with
  | [] => true
  | c :: cols =>
      if (if N.testbit mask k then true else outside lo hi c)
      then others_outside lo hi mask (N.succ k) cols else false
  end.

Definition mask_of (ws : list N) : N := fold_right (fun w m => N.lor (N.shiftl 1 w) m) 0%N ws.

Definition rep (n : nat) (ws : list N) (edges : list (N * N)) (prio : list N) (base : positive)
    (cols : list bdd) : option (list bdd) :=
  if forallb (fun '(a, b) => ble (nth (N.to_nat a) cols F) (nth (N.to_nat b) cols F)) edges
     && forallb (fun '(a, b) => (N.to_nat a <? n) && (N.to_nat b <? n)) edges
     && others_outside base (plus_len base prio) (mask_of ws) 0 cols
  then
    match build (ups n edges) (dns n edges) ws prio 0 0 base with
    | None => None
    | Some vt => Some (fold_right (fun w l => upd (N.to_nat w) (column w vt) l) cols ws)
    end
  else None.

(** [v] is monotone along the edges. *)
Definition mono (v : nat -> bool) (a b : N) : Prop := v (N.to_nat a) = true -> v (N.to_nat b) = true.

Lemma unit_masks_spec : forall n w u, N.testbit (ltab (unit_masks n) w) u = true -> w = u.
Proof.
  intros n w u. unfold ltab, unit_masks.
  destruct (Nat.ltb_spec (N.to_nat w) n).
  - rewrite nth_map_seq by auto. rewrite N2Nat.id.
    rewrite N.shiftl_1_l. intros H1. destruct (N.eq_dec w u); auto.
    rewrite N.pow2_bits_false in H1 by auto. discriminate.
  - rewrite nth_overflow by (rewrite map_length, seq_length; auto).
    rewrite N.bits_0. discriminate.
Qed.

Lemma ltab_upd : forall l a b x, ltab (upd (N.to_nat a) x l) b =
  if (a =? b)%N then (if N.to_nat b <? length l then x else 0%N) else ltab l b.
Proof.
  intros. unfold ltab. rewrite nth_upd_dflt.
  destruct (N.eqb_spec a b) as [->|H]; [now rewrite Nat.eqb_refl|].
  destruct (Nat.eqb_spec (N.to_nat a) (N.to_nat b)); auto.
  apply N2Nat.inj in e. congruence.
Qed.

Lemma ups_spec : forall n v edges, Forall (fun '(a, b) => mono v a b) edges ->
  forall w u, N.testbit (ltab (ups n edges) w) u = true -> mono v w u.
Proof.
  intros n v edges. induction edges as [|[a b] edges IH]; intros HF w u H; simpl in H.
  - apply unit_masks_spec in H. subst. unfold mono; auto.
  - inversion HF as [|? ? H1 H2]; subst. specialize (IH H2). rewrite ltab_upd in H.
    destruct (N.eqb_spec a w) as [->|E]; [|eauto].
    destruct (N.to_nat w <? _); [|rewrite N.bits_0 in H; discriminate].
    rewrite N.lor_spec in H. apply orb_true_iff in H as [H|H]; [eauto|].
    apply IH in H. unfold mono in *; auto.
Qed.

Lemma dns_spec : forall n v edges, Forall (fun '(a, b) => mono v a b) edges ->
  forall w u, N.testbit (ltab (dns n edges) w) u = true -> mono v u w.
Proof.
  intros n v edges. unfold dns.
  assert (forall w u, N.testbit (ltab (unit_masks n) w) u = true -> mono v u w) as HI.
  { intros w u H. apply unit_masks_spec in H. subst. unfold mono; auto. }
  revert HI. generalize (unit_masks n).
  induction edges as [|[a b] edges IH]; intros l HI HF w u H; simpl in H; [eauto|].
  inversion HF as [|? ? H1 H2]; subst. eapply IH; [|auto|exact H].
  clear w u H IH H2. intros w u H. rewrite ltab_upd in H.
  destruct (N.eqb_spec b w) as [->|E]; [|eauto].
  destruct (N.to_nat w <? _); [|rewrite N.bits_0 in H; discriminate].
  rewrite N.lor_spec in H. apply orb_true_iff in H as [H|H]; [eauto|].
  apply HI in H. unfold mono in *; auto.
Qed.

Definition agrees (v : nat -> bool) (t f : N) : Prop :=
  (forall u, N.testbit t u = true -> v (N.to_nat u) = true) /\
  (forall u, N.testbit f u = true -> v (N.to_nat u) = false).

Lemma plus_len_le : forall l x, (x <= plus_len x l)%positive.
Proof. induction l; simpl; intros; [lia|]. specialize (IHl (Pos.succ x)). unfold plus_len in *. lia. Qed.

Lemma build_spec : forall up dn ws v,
  (forall w u, N.testbit (ltab up w) u = true -> mono v w u) ->
  (forall w u, N.testbit (ltab dn w) u = true -> mono v u w) ->
  forall prio t f x vt e0, build up dn ws prio t f x = Some vt -> agrees v t f ->
  exists e, (forall y, (y < x)%positive \/ (plus_len x prio <= y)%positive -> e y = e0 y) /\
    forall w, In w ws -> eval e (column w vt) = v (N.to_nat w).
Proof.
  intros up dn ws v HU HD. induction prio as [|p prio IH]; intros t f x vt e0 HB [HT HFa].
  - simpl in HB. destruct (forallb _ ws) eqn:E; [|discriminate]. injection HB as <-.
    exists e0. split; auto. intros w Hw. rewrite forallb_forall in E. specialize (E w Hw).
    rewrite N.lor_spec in E. simpl. destruct (N.testbit t w) eqn:Et.
    + simpl. symmetry; auto.
    + simpl in E. simpl. symmetry; auto.
  - cbn [build] in HB.
    destruct (N.testbit (N.lor t f) p) eqn:E.
    + destruct (IH _ _ _ _ e0 HB (conj HT HFa)) as (e & H1 & H2). exists e. split; auto.
      intros y Hy. apply H1. destruct Hy; auto. right. simpl in *.
      clear - H. revert x H. induction prio; simpl; intros; [lia|]. apply IHprio. auto.
    + destruct (build up dn ws prio t (N.lor f (ltab dn p)) (Pos.succ x)) as [l|] eqn:EL; [|discriminate].
      destruct (build up dn ws prio (N.lor t (ltab up p)) f (Pos.succ x)) as [h|] eqn:EH; [|discriminate].
      injection HB as <-.
      set (e1 := fun y => if (y =? x)%positive then v (N.to_nat p) else e0 y).
      assert (exists e, (forall y, (y < Pos.succ x)%positive \/ (plus_len (Pos.succ x) prio <= y)%positive -> e y = e1 y) /\
        forall w, In w ws -> eval e (column w (if v (N.to_nat p) then h else l)) = v (N.to_nat w)) as (e & H1 & H2).
      { destruct (v (N.to_nat p)) eqn:Ep.
        - apply (IH _ _ _ _ e1 EH). split; auto. intros u Hu. rewrite N.lor_spec in Hu.
          apply orb_true_iff in Hu as [Hu|Hu]; auto. apply HU in Hu. unfold mono in Hu; auto.
        - apply (IH _ _ _ _ e1 EL). split; auto. intros u Hu. rewrite N.lor_spec in Hu.
          apply orb_true_iff in Hu as [Hu|Hu]; auto. apply HD in Hu. unfold mono in Hu.
          destruct (v (N.to_nat u)); auto. rewrite Hu in Ep; auto. }
      exists e. split.
      * intros y Hy. rewrite H1.
        -- unfold e1. destruct (Pos.eqb_spec y x); auto. subst y. exfalso.
           destruct Hy as [Hy|Hy]; [lia|]. simpl in Hy.
           pose proof (plus_len_le prio (Pos.succ x)). unfold plus_len in *. lia.
        -- destruct Hy; [left; lia|right; auto].
      * intros w Hw. simpl column. rewrite mk_eval. specialize (H2 w Hw).
        rewrite (H1 x) by (left; lia). unfold e1. rewrite Pos.eqb_refl.
        destruct (v (N.to_nat p)); auto.
Qed.

Lemma outside_eval : forall lo hi t e e', outside lo hi t = true ->
  (forall y, (y < lo)%positive \/ (hi <= y)%positive -> e y = e' y) -> eval e t = eval e' t.
Proof.
  induction t as [| |x l IHl h IHh]; intros e e' H HE; auto. simpl in H.
  destruct (Pos.ltb x lo || Pos.leb hi x) eqn:E; [|discriminate]. apply if_andb in H as [? ?].
  simpl. rewrite (HE x).
  - rewrite (IHl e e'), (IHh e e'); auto.
  - apply orb_true_iff in E as [E|E]; [left; now apply Pos.ltb_lt|right; now apply Pos.leb_le].
Qed.

Lemma others_outside_spec : forall lo hi mask cols k0, others_outside lo hi mask k0 cols = true ->
  forall k, N.testbit mask (k0 + N.of_nat k) = false -> outside lo hi (nth k cols F) = true.
Proof.
  induction cols as [|c cols IH]; intros k0 H k Hk; [destruct k; auto|].
  simpl in H. apply if_andb in H as [H1 H2]. destruct k as [|k]; simpl.
  - rewrite N.add_0_r in Hk. rewrite Hk in H1. auto.
  - apply (IH _ H2). rewrite <- Hk. f_equal. lia.
Qed.

Lemma mask_of_spec : forall ws u, N.testbit (mask_of ws) u = true <-> In u ws.
Proof.
  induction ws as [|w ws IH]; intros u; cbn [mask_of fold_right In].
  - rewrite N.bits_0. split; [discriminate|tauto].
  - fold (mask_of ws). rewrite N.lor_spec, orb_true_iff, IH, N.shiftl_1_l.
    destruct (N.eq_dec w u) as [->|Hne].
    + rewrite N.pow2_bits_true. tauto.
    + rewrite N.pow2_bits_false by auto. split; [intros [?|?]; [discriminate|auto]|].
      intros [?|?]; [congruence|auto].
Qed.

Lemma fold_upd_length : forall X (g : N -> X) ws l,
  length (fold_right (fun w l => upd (N.to_nat w) (g w) l) l ws) = length l.
Proof. induction ws; simpl; intros; auto. rewrite upd_length; auto. Qed.

Lemma fold_upd_nth : forall X (g : N -> X) d ws l k, k < length l ->
  nth k (fold_right (fun w l => upd (N.to_nat w) (g w) l) l ws) d =
  if existsb (N.eqb (N.of_nat k)) ws then g (N.of_nat k) else nth k l d.
Proof.
  induction ws as [|w ws IH]; intros l k Hk; simpl; auto.
  rewrite nth_upd_dflt, fold_upd_length, IH by auto.
  destruct (Nat.ltb_spec k (length l)); [|lia].
  destruct (Nat.eqb_spec (N.to_nat w) k) as [<-|E].
  - rewrite N2Nat.id, N.eqb_refl. reflexivity.
  - destruct (N.eqb_spec (N.of_nat k) w); [subst w; rewrite Nat2N.id in E; lia|]. reflexivity.
Qed.

Lemma rep_length : forall n ws edges prio base cols cols',
  rep n ws edges prio base cols = Some cols' -> length cols' = length cols.
Proof.
  intros n ws edges prio base cols cols' H. unfold rep in H.
  destruct (_ && _); [|discriminate]. destruct (build _ _ _ _ _ _ _) as [vt|]; [|discriminate].
  injection H as <-. apply (fold_upd_length _ (fun w => column w vt)).
Qed.

Lemma rep_covers : forall n ws edges prio base cols cols' v,
  length cols = n -> rep n ws edges prio base cols = Some cols' -> covers n cols v -> covers n cols' v.
Proof.
  intros n ws edges prio base cols cols' v HL H (e0 & He). unfold rep in H.
  destruct (_ && _) eqn:E; [|discriminate].
  apply andb_prop in E as [E E3]. apply andb_prop in E as [E1 E2].
  destruct (build _ _ _ _ _ _ _) as [vt|] eqn:EB; [|discriminate]. injection H as <-.
  assert (Forall (fun '(a, b) => mono v a b) edges) as HM.
  { rewrite forallb_forall in E1, E2. apply Forall_forall. intros [a b] Hab.
    specialize (E1 _ Hab). specialize (E2 _ Hab). simpl in E1, E2.
    apply andb_prop in E2 as [Ha Hb]. apply Nat.ltb_lt in Ha. apply Nat.ltb_lt in Hb.
    intros Hv. rewrite <- He in Hv |- * by auto. eapply ble_eval; eauto. }
  destruct (build_spec _ _ ws v (ups_spec n v edges HM) (dns_spec n v edges HM)
              prio 0%N 0%N base vt e0 EB) as (e & H1 & H2).
  { split; intros u Hu; rewrite N.bits_0 in Hu; discriminate. }
  exists e. intros k Hk.
  rewrite (fold_upd_nth _ (fun w => column w vt)) by lia.
  destruct (existsb (N.eqb (N.of_nat k)) ws) eqn:EX.
  - apply existsb_exists in EX as (w & Hw & Ew). apply N.eqb_eq in Ew. subst w.
    rewrite H2 by auto. now rewrite Nat2N.id.
  - rewrite <- He by auto. eapply outside_eval; [|exact H1].
    eapply others_outside_spec; eauto.
    destruct (N.testbit (mask_of ws) (0 + N.of_nat k)) eqn:EM; auto.
    apply mask_of_spec in EM. rewrite N.add_0_l in EM.
    assert (existsb (N.eqb (N.of_nat k)) ws = true); [|congruence].
    apply existsb_exists. exists (N.of_nat k). split; auto. apply N.eqb_refl.
Qed.

(** ** Plans *)
Inductive op :=
| Cmp (a b : N)
| Rep (ws : list N) (edges : list (N * N)) (prio : list N) (base : positive).

Fixpoint exec (n : nat) (plan : list op) (cols : list bdd) : option (list bdd) :=
  match plan with
  | [] => Some cols
  | Cmp a b :: plan => exec n plan (cmp (N.to_nat a) (N.to_nat b) cols)
  | Rep ws edges prio base :: plan =>
      match rep n ws edges prio base cols with
      | None => None
      | Some cols => exec n plan cols
      end
  end.

Definition pn (p : N * N) : nat * nat := (N.to_nat (fst p), N.to_nat (snd p)).

Fixpoint cmps (plan : list op) : list (N * N) :=
  match plan with
  | [] => []
  | Cmp a b :: plan => (a, b) :: cmps plan
  | Rep _ _ _ _ :: plan => cmps plan
  end.

Lemma exec_covers : forall n plan cols cols' v, length cols = n ->
  valid n (map pn (cmps plan)) -> exec n plan cols = Some cols' -> covers n cols v ->
  covers n cols' (brun (map pn (cmps plan)) v).
Proof.
  induction plan as [|[a b|ws edges prio base] plan IH]; intros cols cols' v HL HV HE HC.
  - simpl in *. congruence.
  - simpl in HE, HV |- *. inversion HV as [|? ? [H1 H2] HV']; subst. simpl in H1, H2.
    refine (IH _ _ _ _ HV' HE _).
    + unfold cmp. rewrite !upd_length. reflexivity.
    + apply cmp_covers; auto.
  - simpl in HE, HV |- *. destruct (rep n ws edges prio base cols) as [c|] eqn:ER; [|discriminate].
    refine (IH _ _ _ _ HV HE _).
    + rewrite (rep_length _ _ _ _ _ _ _ ER). auto.
    + eapply rep_covers; eauto.
Qed.

(** Reordering of comparators that share no wire. *)
Definition same_pair (c d : N * N) : bool :=
  if N.eqb (fst c) (fst d) then N.eqb (snd c) (snd d) else false.
Definition disjoint (c d : N * N) : bool :=
  negb (N.eqb (fst c) (fst d) || N.eqb (fst c) (snd d) || N.eqb (snd c) (fst d) || N.eqb (snd c) (snd d)).

Fixpoint take_cmp (c : N * N) (l : list (N * N)) : option (list (N * N)) :=
  match l with
  | [] => None
  | d :: r =>
      if same_pair c d then Some r
      else if disjoint c d then
        match take_cmp c r with None => None | Some r => Some (d :: r) end
      else None
  end.

Fixpoint trace_eq (plan net : list (N * N)) : bool :=
  match plan with
  | [] => match net with [] => true | _ => false end
  | c :: plan => match take_cmp c net with None => false | Some net => trace_eq plan net end
  end.

Lemma bcx_comm : forall c d v k, disjoint c d = true ->
  bcx (pn c) (bcx (pn d) v) k = bcx (pn d) (bcx (pn c) v) k.
Proof.
  intros [a b] [x y] v k H. unfold disjoint in H. simpl in H. apply negb_true_iff in H.
  apply orb_false_iff in H as [H H4]. apply orb_false_iff in H as [H H3]. apply orb_false_iff in H as [H1 H2].
  assert (forall i j, (i =? j)%N = false -> N.to_nat i =? N.to_nat j = false) as E.
  { intros i j Hij. apply N.eqb_neq in Hij. apply Nat.eqb_neq. intros Hc. apply Hij. now apply N2Nat.inj. }
  apply E in H1, H2, H3, H4. unfold bcx, pn; simpl.
  set (a' := N.to_nat a) in *. set (b' := N.to_nat b) in *. set (x' := N.to_nat x) in *. set (y' := N.to_nat y) in *.
  rewrite !(Nat.eqb_sym x' a'), !(Nat.eqb_sym x' b'), !(Nat.eqb_sym y' a'), !(Nat.eqb_sym y' b'),
    H1, H2, H3, H4.
  destruct (Nat.eqb_spec k a') as [->|]; [rewrite H1, H2; auto|].
  destruct (Nat.eqb_spec k b') as [->|]; [rewrite H3, H4; auto|]. reflexivity.
Qed.

Lemma same_pair_spec : forall c d, same_pair c d = true -> c = d.
Proof.
  intros [a b] [x y] H. unfold same_pair in H. apply if_andb in H as [H1 H2].
  apply N.eqb_eq in H1, H2. simpl in *. congruence.
Qed.

Lemma take_cmp_spec : forall c l r, take_cmp c l = Some r ->
  forall v k, brun (map pn l) v k = brun (map pn r) (bcx (pn c) v) k.
Proof.
  induction l as [|d l IH]; intros r H v k; [discriminate|]. simpl in H.
  destruct (same_pair c d) eqn:E.
  - apply same_pair_spec in E. injection H as <-. subst. reflexivity.
  - destruct (disjoint c d) eqn:ED; [|discriminate].
    destruct (take_cmp c l) as [r'|]; [|discriminate]. injection H as <-.
    simpl. rewrite (IH r' eq_refl). apply brun_ext. intros i. now apply bcx_comm.
Qed.

Lemma trace_eq_spec : forall plan net, trace_eq plan net = true ->
  forall v k, brun (map pn net) v k = brun (map pn plan) v k.
Proof.
  induction plan as [|c plan IH]; intros net H v k; simpl in H.
  - destruct net; [reflexivity|discriminate].
  - destruct (take_cmp c net) as [r|] eqn:E; [|discriminate].
    rewrite (take_cmp_spec _ _ _ E). simpl. apply IH; auto.
Qed.

Lemma trace_eq_In : forall plan net, trace_eq plan net = true -> forall c, In c plan -> In c net.
Proof.
  assert (forall c l r, take_cmp c l = Some r -> In c l /\ forall d, In d r -> In d l) as H0.
  { induction l as [|d l IH]; intros r H; [discriminate|]. simpl in H.
    destruct (same_pair c d) eqn:E.
    - apply same_pair_spec in E. injection H as <-. subst. split; [left; auto|right; auto].
    - destruct (disjoint c d); [|discriminate]. destruct (take_cmp c l) as [r'|]; [|discriminate].
      injection H as <-. destruct (IH _ eq_refl) as [? ?]. split; [right; auto|].
      intros x [->|?]; [left; auto|right; auto]. }
  induction plan as [|c plan IH]; intros net H d Hd; [destruct Hd|].
  simpl in H. destruct (take_cmp c net) as [r|] eqn:E; [|discriminate].
  apply H0 in E as [E1 E2]. destruct Hd as [<-|Hd]; [exact E1|]. apply E2. exact (IH _ H _ Hd).
Qed.

Fixpoint chain (cols : list bdd) : bool :=
  match cols with
  | a :: ((b :: _) as r) => if ble a b then chain r else false
  | _ => true
  end.

Lemma chain_spec : forall e cols, chain cols = true -> forall i j, i < j -> j < length cols ->
  eval e (nth i cols F) = true -> eval e (nth j cols F) = true.
Proof.
  intros e. induction cols as [|a [|b cols] IH]; intros H i j Hij Hj Hi.
  - simpl in Hj; lia.
  - simpl in Hj. lia.
  - cbn [chain] in H. apply if_andb in H as [H1 H2].
    destruct j as [|j]; [lia|]. simpl in Hj. change (nth (S j) (a :: b :: cols) F) with (nth j (b :: cols) F).
    destruct i as [|i].
    + simpl in Hi. pose proof (ble_eval _ _ _ H1 Hi) as Hb.
      destruct j as [|j]; auto. apply (IH H2 0 (S j)); auto; simpl; lia.
    + apply (IH H2 i j); auto; simpl; lia.
Qed.

Definition valid_table (n : nat) (net : list (N * N)) : bool :=
  forallb (fun '(a, b) => (N.to_nat a <? N.to_nat b) && (N.to_nat b <? n)) net.

Definition check (n : nat) (base : positive) (net : list (N * N)) (plan : list op) : bool :=
  if trace_eq (cmps plan) net then
    match exec n plan (init n base) with
    | None => false
    | Some cols => chain cols
    end
  else false.

Lemma valid_table_spec : forall n net, valid_table n net = true -> valid n (map pn net).
Proof.
  intros n net H. unfold valid_table in H. rewrite forallb_forall in H.
  apply Forall_forall. intros p Hp. apply in_map_iff in Hp as ([a b] & <- & Hp).
  specialize (H _ Hp). simpl in H. apply andb_prop in H as [H1 H2].
  apply Nat.ltb_lt in H1, H2. split; auto.
Qed.

Lemma exec_length : forall n plan cols cols', exec n plan cols = Some cols' -> length cols' = length cols.
Proof.
  induction plan as [|[a b|ws edges prio base] plan IH]; intros cols cols' H; simpl in H.
  - congruence.
  - rewrite (IH _ _ H). unfold cmp. now rewrite !upd_length.
  - destruct (rep n ws edges prio base cols) as [c|] eqn:ER; [|discriminate].
    rewrite (IH _ _ H). eapply rep_length; eauto.
Qed.

Theorem check_sound : forall n base net plan, valid_table n net = true -> check n base net plan = true ->
  sorts01 n (map pn net).
Proof.
  intros n base net plan HV HC v i j Hij Hj. unfold check in HC. apply if_andb in HC as [HT HC].
  destruct (exec n plan (init n base)) as [cols|] eqn:E; [|discriminate].
  assert (length (init n base) = n) as HL by (unfold init; rewrite map_length, seq_length; auto).
  assert (valid n (map pn (cmps plan))) as HV'.
  { apply valid_table_spec in HV. unfold valid in *. rewrite Forall_forall in *.
    intros p Hp. apply HV. apply in_map_iff in Hp as (c & <- & Hc). apply in_map.
    eapply trace_eq_In; eauto. }
  destruct (exec_covers n plan (init n base) cols v HL HV' E (init_covers n base v)) as (e & He).
  rewrite !(trace_eq_spec _ _ HT), <- !He by lia.
  destruct (eval e (nth i cols F)) eqn:Ei; auto.
  rewrite (chain_spec e cols HC i j); auto. rewrite (exec_length _ _ _ _ E). lia.
Qed.
