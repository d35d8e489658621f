(** MicrostructureExamples.v -- witnesses and counterexamples for C30: two 1D-like linear cells [0,1], [1,2] sharing degree of freedom 1. *)
From Coq Require Import Reals ZArith QArith Bool List String Lia Lra Floats.
From Verif Require Import Base BaseFacts InputModel MicrostructureModel MicrostructureSpec MicrostructureProofs.
Import ListNotations.

Section Two.
  Context (N : Num).
  Definition val (i q : nat) : N := if Nat.eqb i (1 - q) then nofZ N 1 else nofZ N 0.
  Definition gr (i q : nat) : pt N := if Nat.eqb i 0 then mkpt (nofZ N (-1)) (nofZ N 0) (nofZ N 0) else mkpt (nofZ N 1) (nofZ N 0) (nofZ N 0).
  (** The points are numbered the other way round than the shape functions. *)
  Definition mcell (a : nat) : cell N := mkcell true (nofZ N 1000) [a; S a] [mkpt (nofZ N (Z.of_nat (S a))) (nofZ N 0) (nofZ N 0); mkpt (nofZ N (Z.of_nat a)) (nofZ N 0) (nofZ N 0)] val gr.
  Definition sig (q : nat) : nat := (1 - q)%nat.
  Definition t_old (d : nat) : N := match d with 1%nat => nofZ N 1010 | _ => nofZ N 900 end.
  Definition t_new (d : nat) : N := match d with 1%nat => nofZ N 960 | _ => nofZ N 900 end.
End Two.
Lemma mcell_interpolating a : interpolating 2 (mcell QNum a) sig.
Proof.
  split; [reflexivity|]. split; [reflexivity|]. intros q Q. split; [unfold sig; lia|]. intros i I.
  destruct q as [|[|q]]; [| |lia]; destruct i as [|[|i]]; try lia; split; intros H; try reflexivity; try discriminate.
Qed.
Lemma mcell_interpolating_R a : interpolating 2 (mcell RNum a) sig.
Proof.
  split; [reflexivity|]. split; [reflexivity|]. intros q Q. split; [unfold sig; lia|]. intros i I.
  destruct q as [|[|q]]; [| |lia]; destruct i as [|[|i]]; try lia; unfold sig; cbn; split; intros H; try discriminate; try (apply Rltb_true; lra); try reflexivity; apply Rltb_true in H; lra.
Qed.
Lemma sig_injective q q' : (q < 2)%nat -> (q' < 2)%nat -> sig q = sig q' -> q = q'.
Proof. unfold sig. lia. Qed.
(** A drop of 50 K in 1/10 s: recorded rate 1010 - 9600; recorded once per cell. *)
Lemma ex_lines : map (fun l : line QNum => (Qred (px (l_point l)), Qred (l_G l), Qred (l_rate l))) (compute_G_and_R (N := QNum) 2 (t_old QNum) (t_new QNum) (1 # 10) [mcell QNum 0; mcell QNum 1]) =
  [(1%Q, 60%Q, (-8590)%Q); (1%Q, 60%Q, (-8590)%Q)].
Proof. vmrefl. Qed.
(** A uniform final temperature: the velocity is infinite. *)
Lemma ex_infinite : map (fun l => l_R l) (compute_G_and_R (N := FNum) 2 (fun _ => nofZ FNum 1010) (fun _ => nofZ FNum 1000) (nofZ FNum 1) [mcell FNum 0]) = [infinity; infinity].
Proof. vmrefl. Qed.
