(** EnsembleExamples.v -- witnesses and counterexamples for C26-C29. *)
From Coq Require Import Reals ZArith QArith Bool List String Ascii Lra Lia.
From Verif Require Import Base BaseFacts Decimal MaterialModel InputModel InputExamples EnsembleModel EnsembleSpec EnsembleProofs EnsembleProofs2.
Import ListNotations.
Local Open Scope string_scope.
Notation leaf := InputExamples.leaf.

(** A printer of rational numbers and a reader that reads back every number printed and decimal literals. *)
Fixpoint enc_pos (p : positive) : string := match p with xH => "e" | xO p => String "0" (enc_pos p) | xI p => String "1" (enc_pos p) end.
Fixpoint dec_pos (s : string) : option (positive * string) :=
  match s with
  | String c r => if Ascii.eqb c "e" then Some (xH, r)
                  else match dec_pos r with
                       | Some (p, r') => if Ascii.eqb c "0" then Some (xO p, r') else if Ascii.eqb c "1" then Some (xI p, r') else None
                       | None => None
                       end
  | EmptyString => None
  end.
Definition print_Q (q : Q) : string :=
  match Qnum q with
  | Z0 => String "Z" (enc_pos (Qden q))
  | Zpos p => String "P" (enc_pos p ++ enc_pos (Qden q))
  | Zneg p => String "M" (enc_pos p ++ enc_pos (Qden q))
  end.
Definition read_Q (s : string) : option Q :=
  match s with
  | String c r =>
      if Ascii.eqb c "Z" then match dec_pos r with Some (d, _) => Some (Qmake 0 d) | None => None end
      else if Ascii.eqb c "P" then match dec_pos r with Some (n, r') => match dec_pos r' with Some (d, _) => Some (Qmake (Zpos n) d) | None => None end | None => None end
      else if Ascii.eqb c "M" then match dec_pos r with Some (n, r') => match dec_pos r' with Some (d, _) => Some (Qmake (Zneg n) d) | None => None end | None => None end
      else parse_Q s
  | EmptyString => None
  end.
Lemma dec_enc p : forall r, dec_pos (enc_pos p ++ r) = Some (p, r).
Proof. induction p as [p IH|p IH|]; intros r; cbn [enc_pos append dec_pos]; [rewrite IH; reflexivity|rewrite IH; reflexivity|reflexivity]. Qed.
Lemma dec_enc0 p : dec_pos (enc_pos p) = Some (p, "").
Proof. induction p as [p IH|p IH|]; cbn [enc_pos dec_pos]; [rewrite IH; reflexivity|rewrite IH; reflexivity|reflexivity]. Qed.
Lemma read_print q : read_Q (print_Q q) = Some q.
Proof.
  destruct q as [[|n|n] d]; unfold print_Q; cbn [Qnum Qden]; unfold read_Q; cbn [Ascii.eqb Bool.eqb].
  - rewrite dec_enc0. reflexivity.
  - rewrite dec_enc, dec_enc0. reflexivity.
  - rewrite dec_enc, dec_enc0. reflexivity.
Qed.

(** Two uncertain parameters of a beam; one of a material. *)
Definition en_db (power stddev : string) : ptree :=
  Node "" [sub "sources" [sub "beam_0" [leaf "max_power" power; leaf "depth" "2"]]; sub "materials" [leaf "initial_temperature" "300"];
    sub "ensemble" [leaf "ensemble_simulation" "true"; leaf "ensemble_size" "3";
      sub "sources" [sub "beam_0" [leaf "max_power_stddev" stddev]]; sub "materials" [leaf "initial_temperature_stddev" "5"]]].
Definition en_ps : list (param QNum) :=
  [mkparam QNum ["sources"; "beam_0"; "max_power"] 100%Q 10%Q; mkparam QNum ["materials"; "initial_temperature"] 300%Q 5%Q].
Lemma en_described : described (N := QNum) read_Q (en_db "100" "10") en_ps.
Proof.
  eexists. split; [vm_compute; reflexivity|]. split; [|split].
  - vm_compute. repeat constructor.
  - repeat constructor; simpl; intuition discriminate.
  - intros p rest [<-|[<-|[]]]; discriminate.
Qed.
(** A stream whose first variate is -1, then 1, 2, 3, ... *)
Definition en_z (k : nat) : Q := match k with O => (-1)%Q | S _ => inject_Z (Z.of_nat k) end.
Definition en_run (db : ptree) (P r : nat) : res (option tstate) :=
  match split P 3 r with Ok p => create_database_ensemble (N := QNum) read_Q print_Q en_z 5 db (part_first p) (part_size p) 3 | _ => UB end.
(** Values of the power in the local members. *)
Definition en_power (o : res (option tstate)) : list (res Q) :=
  match o with Ok (Some st) => map (fun d => get (read_Q : string -> option (num QNum)) d ["sources"; "beam_0"; "max_power"]) (ts_dbs st) | _ => [] end.
Lemma en_collision : en_power (en_run (en_db "0" "1") 1 0) = [Ok 1%Q; Ok 2%Q; Ok 3%Q] /\ en_power (en_run (en_db "0" "1") 2 0) = [Ok 1%Q; Ok 2%Q] /\ en_power (en_run (en_db "0" "1") 2 1) = [Ok 2%Q].
Proof. repeat split; vmrefl. Qed.
(** Nothing is rejected. *)
Lemma en_no_rejection : forall i p g, nth_error en_ps i = Some p -> (0 <= g < 3)%nat -> nltb QNum (draw (N := QNum) en_z (pr_mean p) (pr_stddev p) (g + i * 3)) (nofZ QNum 0) = false.
Proof. intros [|[|i]] p g E G; simpl in E; [injection E as <-|injection E as <-|destruct i; discriminate]; destruct g as [|[|[|g]]]; try lia; reflexivity. Qed.
Lemma en_independent : en_power (en_run (en_db "100" "10") 1 0) = [Ok 90%Q; Ok 110%Q; Ok 120%Q] /\ en_power (en_run (en_db "100" "10") 2 0) = [Ok 90%Q; Ok 110%Q] /\ en_power (en_run (en_db "100" "10") 2 1) = [Ok 120%Q].
Proof. repeat split; vmrefl. Qed.

(** Diameter 1, depth 2. *)
Definition en_beam (N : Num) (d p : N) : beam N := mkbeam "goldak" d p.
Lemma en_depth : bounding_heat_sources (N := QNum) [[en_beam QNum 1%Q 2%Q]] [[[en_beam QNum 1%Q 2%Q]]; [[en_beam QNum (1 # 2) 2%Q]]] = Ok [Some (en_beam QNum 1%Q 1%Q)].
Proof. vmrefl. Qed.
Definition en_local : list (list (beam RNum)) := [[en_beam RNum 1%R 1%R; mkbeam (N := RNum) "cube" 3%R 3%R; en_beam RNum 2%R 1%R]].
Definition en_all : list (list (list (beam RNum))) := [en_local; [[en_beam RNum 2%R 1%R; mkbeam (N := RNum) "cube" 4%R 3%R; en_beam RNum 1%R 1%R]]].
Lemma en_known : Forall known (hd [] en_local).
Proof. constructor; [left; left; reflexivity|]. constructor; [right; reflexivity|]. constructor; [left; left; reflexivity|constructor]. Qed.
Lemma en_pos : Forall (fun b : beam RNum => (-1 < b_diameter b)%R) (hd [] en_local).
Proof. repeat constructor; simpl; lra. Qed.
Lemma en_same : forall rank m, In rank en_all -> In m rank -> same_types (hd [] en_local) m.
Proof. intros rank m [<-|[<-|[]]] [<-|[]]; unfold same_types; repeat constructor. Qed.
