(** MalformedExamples.v -- concrete files for C88. *)
From Coq Require Import Reals ZArith QArith Bool List String Ascii Lia.
From Verif Require Import Base BaseFacts Decimal QuaternionModel ScanPathModel ScanPathSpec MaterialModel MaterialSpec DepositionModel DepositionSpec MalformedSpec MalformedProofs.
Import ListNotations.
Local Open Scope string_scope.

Ltac vmr := vm_compute; reflexivity.
(** A segment file cut in the middle of its second segment line, as it is while another program is writing it. *)
Definition whole_segments : list string := ["Number of path segments"; "2"; "Mode x y z pmod param"; "1 0.0 0.0 0.1 0 0.5"; "0 0.002 0.0 0.1 1 0.8"].
Definition cut_segments : list string := ["Number of path segments"; "2"; "Mode x y z pmod param"; "1 0.0 0.0 0.1 0 0.5"; "0 0.002 0.0"].
Definition bad_segments : list string := ["Number of path segments"; "2"; "Mode x y z pmod param"; "1 0.0 0.0 0.1 0 0.5"; "0 0.002 0.0 x 1 0.8"].
Definition fine {A} (r : res A) : bool := match r with Ok _ => true | _ => false end.
Lemma cut_segments_ub : fine (load_segment QParser 1%Q 1%Q whole_segments) = true /\ load_segment QParser 1%Q 1%Q cut_segments = UB /\ load_segment QParser 1%Q 1%Q bad_segments = Throw.
Proof. repeat split; vmr. Qed.
Lemma cut_events_ub : fine (load_event_series QParser 1%Q ["0.1, 0, 0, 0, 1"; "1.0, 1, 1, 0, 0"]) = true /\ load_event_series QParser 1%Q ["0.1, 0, 0, 0, 1"; "1.0, 1, 1"] = UB /\
  load_event_series QParser 1%Q ["0.1, 0, 0, 0, 1"; "1.0, 1, x"] = Throw.
Proof. repeat split; vmr. Qed.
Lemma cut_deposition_ub : fine (read_material_deposition QParser (fun a => a) (fun a => a) true ["3"; "0 0 1 2 2 1 0.5 0"; "1 0 1 2 2 1 0.7 0"]) = true /\
  read_material_deposition QParser (fun a => a) (fun a => a) true ["3"; "0 0 1 2 2 1 0.5 0"; "1 0 1 2 2 1 0.7"] = UB /\
  read_material_deposition QParser (fun a => a) (fun a => a) true ["3"; "0 0 1 2 2 1 0.5 0"; "1 0 1 2 2 1 0.4"] = Throw /\
  read_material_deposition QParser (fun a => a) (fun a => a) true ["3"; "0 0 1 2 2 1 0.5 0"; "1 0 1"] = UB.
Proof. repeat split; vmr. Qed.
Lemma table_without_comma : fine (parse_table QParser "300., 5 | 1000, 2") = true /\ parse_table QParser "300., 5 | 1000" = UB /\ parse_table QParser "300., 5 | steel" = Throw /\ parse_poly QParser 1 "5., x" = Throw.
Proof. repeat split; vmr. Qed.
Lemma short_example : runs_out QParser ["0"; "0.002"; "0.0"] [1; 2; 3; 4; 5]%nat /\ ~ runs_out QParser ["0"; "0.002"; "x"] [1; 2; 3; 4; 5]%nat.
Proof.
  split.
  - do 2 (econstructor 2; [reflexivity|vmr|]). constructor 1. simpl. lia.
  - intros H. inversion H as [c l L|c l s v E V R]; subst; [simpl in L; lia|]. inversion R as [c l L|c l s' v' E' V' R']; subst; [simpl in L; lia|].
    injection E' as <-. vm_compute in V'. discriminate.
Qed.
Lemma describe_example : exists segs, describe QParser 1%Q 1%Q (skipn 3 cut_segments) 1 segs /\ mode_accepted 1 "0 0.002 0.0".
Proof.
  destruct (proj1 (segment_ub QParser 1%Q 1%Q cut_segments) (proj1 (proj2 cut_segments_ub))) as (h & c & rest & n & E & En & i & line & segs & L & D & M & R).
  injection E as <- <- <-. vm_compute in En. injection En as <-.
  change (before_marker (firstn (Z.to_nat (2 mod 2 ^ 32)) (tl (skipn 2 cut_segments)))) with (skipn 3 cut_segments) in L, D.
  destruct i as [|[|i]].
  - injection L as <-. exfalso. revert R. apply (enough_columns QParser _ _ 6); [intros x; cbn [In]; lia|]. vm_compute. lia.
  - injection L as <-. exists segs. split; assumption.
  - destruct i; discriminate.
Qed.
