(** Proofs about the overloads of sort and stable_sort. *)
From Coq Require Import List Bool.
From Verif Require Import Model.SortFunctions Spec.SortFunctions.
Import ListNotations.

Lemma proper_cases : forall fs, proper fs ->
  fs = [] \/ (exists f v, fs = [(f, v)]) \/ (exists r v w, fs = [(Comparison r, v); (Projection, w)]).
Proof.
  intros [|[f v] [|[g w] [|h l]]] H; simpl in H.
  - auto.
  - right. left. eauto.
  - destruct H as [[r Hr] Hp]. simpl in *. subst. right. right. eauto.
  - destruct H.
Qed.

Ltac split_answers accepts :=
  repeat match goal with
  | |- context[accepts ?w ?l] => destruct (accepts w l)
  end; try reflexivity.

Lemma sort_ok : forall accepts s o fs, proper fs -> sort accepts (arguments s o fs) = expected accepts s o fs.
Proof.
  intros accepts s o fs HF. apply proper_cases in HF as [->|[(f & v & ->)|(r & v & w & ->)]].
  - destruct s as [[]|], o; cbv; split_answers accepts.
  - destruct s as [[]|], o, f as [[]|]; cbv; split_answers accepts.
  - destruct s as [[]|], o, r; cbv; split_answers accepts.
Qed.

Definition breaks (f : fn) : bool := match f with Comparison Error => true | _ => false end.

Lemma stable_sort_eq : forall accepts s o fs, proper fs ->
  stable_sort accepts (arguments s o fs) =
  match s, o, fs with
  | Some (Lvalue | Rvalue), APair _ _, [] => CompileError
  | None, APair _ _, [(f, _)] => if breaks f then CompileError else expected accepts s o fs
  | _, _, _ => expected accepts s o fs
  end.
Proof.
  intros accepts s o fs HF. apply proper_cases in HF as [->|[(f & v & ->)|(r & v & w & ->)]].
  - destruct s as [[]|], o; cbv; split_answers accepts.
  - destruct s as [[]|], o, f as [[]|]; cbv; split_answers accepts.
  - destruct s as [[]|], o, r; cbv; split_answers accepts.
Qed.

Definition wins (args : list argument) (l1 : list overload) (o : overload) (l2 : list overload) : Prop :=
  forall o', In o' (l1 ++ l2) -> better args (parameters o) (parameters o') = true.

Lemma best_some : forall args l others o, best args l others = Some o ->
  exists l1 l2, l = l1 ++ o :: l2 /\ wins args (others ++ l1) o l2.
Proof.
  induction l as [|a l IH]; intros others o; simpl; [discriminate|].
  destruct (forallb _ _) eqn:E; intros H.
  - inversion H; subst. exists [], l. split; auto. intros o' HI. rewrite app_nil_r in HI.
    rewrite forallb_forall in E. now apply E.
  - apply IH in H as (l1 & l2 & -> & HW). exists (a :: l1), l2. split; auto. now rewrite <- app_assoc in HW.
Qed.

Lemma best_none : forall args l others, best args l others = None ->
  forall l1 o l2, l = l1 ++ o :: l2 -> ~ wins args (others ++ l1) o l2.
Proof.
  induction l as [|a l IH]; intros others H l1 o l2 HL HW; simpl in H; [now destruct l1|].
  destruct (forallb _ _) eqn:E; [discriminate|]. destruct l1 as [|b l1]; simpl in HL; inversion HL; subst.
  - rewrite <- not_true_iff_false in E. apply E. apply forallb_forall. intros o' HI. apply HW. now rewrite app_nil_r.
  - apply (IH _ H l1 o l2 eq_refl). intros o' HI. apply HW. now rewrite <- !app_assoc in *.
Qed.
