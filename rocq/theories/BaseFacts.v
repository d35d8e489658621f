(** BaseFacts.v -- facts about the carriers: reflection of the boolean comparisons on R, and order
    embeddings (a carrier whose comparisons on a domain of values are those of the reals). *)
From Coq Require Import Reals ZArith QArith Qreals Bool List Lra Lia Floats.
From Flocq Require Import IEEE754.BinarySingleNaN IEEE754.PrimFloat Core.Raux.
From Verif Require Import Base.
Import ListNotations.
Local Open Scope R_scope.

Lemma Rltb_spec x y : reflect (x < y) (Rltb x y).
Proof. unfold Rltb; destruct (Rlt_dec x y); constructor; assumption. Qed.
Lemma Rleb_spec x y : reflect (x <= y) (Rleb x y).
Proof. unfold Rleb; destruct (Rle_dec x y); constructor; assumption. Qed.
Lemma Reqb_spec x y : reflect (x = y) (Reqb x y).
Proof. unfold Reqb; destruct (Req_EM_T x y); constructor; assumption. Qed.

Lemma Rltb_true x y : Rltb x y = true <-> x < y.
Proof. destruct (Rltb_spec x y); split; try discriminate; auto; intros; contradiction. Qed.
Lemma Rltb_false x y : Rltb x y = false <-> y <= x.
Proof. destruct (Rltb_spec x y); split; try discriminate; auto; intros; lra. Qed.
Lemma Rleb_true x y : Rleb x y = true <-> x <= y.
Proof. destruct (Rleb_spec x y); split; try discriminate; auto; intros; contradiction. Qed.
Lemma Rleb_false x y : Rleb x y = false <-> y < x.
Proof. destruct (Rleb_spec x y); split; try discriminate; auto; intros; lra. Qed.

(** Case analysis on the first real comparison found in the goal. *)
Ltac rcase :=
  match goal with
  | |- context [Rltb ?a ?b] => destruct (Rltb_spec a b)
  | |- context [Rleb ?a ?b] => destruct (Rleb_spec a b)
  | |- context [Reqb ?a ?b] => destruct (Reqb_spec a b)
  end.
Ltac rcase_in H :=
  match type of H with
  | context [Rltb ?a ?b] => destruct (Rltb_spec a b)
  | context [Rleb ?a ?b] => destruct (Rleb_spec a b)
  | context [Reqb ?a ?b] => destruct (Reqb_spec a b)
  end.

(** [Embeds N dom val]: on the values in [dom] the comparisons of [N] are those of the reals
    through [val]. *)
Record Embeds (N : Num) (dom : N -> Prop) (val : N -> R) : Prop := {
  emb_ltb : forall x y, dom x -> dom y -> nltb N x y = Rltb (val x) (val y);
  emb_leb : forall x y, dom x -> dom y -> nleb N x y = Rleb (val x) (val y)
}.

Lemma Embeds_R : Embeds RNum (fun _ => True) (fun x => x).
Proof. split; reflexivity. Qed.

Lemma Embeds_Q : Embeds QNum (fun _ => True) Q2R.
Proof.
  assert (L : forall x y, Qle_bool x y = Rleb (Q2R x) (Q2R y)).
  { intros x y. destruct (Rleb_spec (Q2R x) (Q2R y)) as [h|h].
    - apply Qle_bool_iff, Rle_Qle, h.
    - destruct (Qle_bool x y) eqn:E; [|reflexivity].
      exfalso; apply h, Qle_Rle, Qle_bool_iff, E. }
  split; intros x y _ _; simpl; [|apply L].
  unfold Qltb; rewrite L.
  destruct (Rleb_spec (Q2R y) (Q2R x)); destruct (Rltb_spec (Q2R x) (Q2R y)); simpl; auto; lra.
Qed.

(** Finite binary64 numbers and their real value. *)
Definition Ffinite (x : FNum) : Prop := PrimFloat.is_finite x = true.
Definition Fval (x : FNum) : R := B2R (Prim2B x).

Lemma Embeds_F : Embeds FNum Ffinite Fval.
Proof.
  split; intros x y hx hy; unfold Ffinite in hx, hy; rewrite is_finite_equiv in hx, hy; simpl.
  - rewrite ltb_equiv, Bltb_correct by assumption. unfold Fval.
    destruct (Rlt_bool_spec (B2R (Prim2B x)) (B2R (Prim2B y))); symmetry;
      [apply Rltb_true|apply Rltb_false]; assumption.
  - rewrite leb_equiv, Bleb_correct by assumption. unfold Fval.
    destruct (Rle_bool_spec (B2R (Prim2B x)) (B2R (Prim2B y))); symmetry;
      [apply Rleb_true|apply Rleb_false]; assumption.
Qed.

Lemma back_app {A} (l : list A) a : back (l ++ [a]) = Ok a.
Proof. unfold back. rewrite rev_app_distr. reflexivity. Qed.
Lemma back_nil {A} : back (@nil A) = UB.
Proof. reflexivity. Qed.
Lemma back_nth {A} (l : list A) : l <> [] -> back l = at_ l (length l - 1).
Proof.
  intros H. destruct (exists_last H) as [l' [a ->]].
  rewrite back_app. unfold at_. rewrite app_length; simpl.
  rewrite nth_error_app2 by lia.
  replace (length l' + 1 - 1 - length l')%nat with 0%nat by lia. reflexivity.
Qed.
Lemma at_lt {A} (l : list A) i : (i < length l)%nat -> exists a, nth_error l i = Some a /\ at_ l i = Ok a /\ In a l.
Proof.
  intros H. unfold at_. destruct (nth_error l i) eqn:E.
  - exists a; split; [reflexivity|]. split; [reflexivity|]. eapply nth_error_In; eauto.
  - apply nth_error_None in E. lia.
Qed.

(** Equality by evaluation in the kernel's virtual machine. *)
Ltac vmrefl := match goal with |- @eq ?T ?a ?b => exact (@eq_refl T b <: @eq T a b) end.
