(** SuperpositionExamples.v -- runs that are added up; radiation. *)
From Coq Require Import Reals List Bool String ZArith Lra Lia.
From Verif Require Import Base BaseFacts QuaternionModel ScanPathModel ScanPathSpec HeatSourceModel HeatSourceProofs2 MaterialModel InputModel HeatModel HeatSpec HeatProofs PowerSpec EnergyModel EnergySpec EnergyProofs3 EnergyExamples HeatExamples SuperpositionSpec SuperpositionProofs2 SuperpositionProofs3.
Import ListNotations.
Local Open Scope R_scope.

Lemma K3_settled : settled (fun _ _ => K3 (N := RNum)).
Proof. intros n i c q T T'. repeat split. Qed.
Lemma ex_never_cools : Forall never_cools [pulse_source [(1/4, 0); (3/8, 1)]; ex_ebeam].
Proof.
  apply Forall_cons; [|apply Forall_cons; [|apply Forall_nil]]; unfold never_cools; cbn [pulse_source source_path g_path ex_ebeam e_path pulse_path sp_segs map];
    repeat (apply Forall_cons; [cbn; lra|]); apply Forall_nil.
Qed.
Lemma groups_case : forall s dts, Forall (fun d => 0 <= d) dts -> exists l1 l2 (K : nat -> nat -> laws RNum) (t' : R) (y' : list R),
  List.length l1 = 1%nat /\ List.length l2 = 1%nat /\ mesh_ok (mesh3 (N := RNum) adiabatic) /\ settled K /\ Forall never_cools (l1 ++ l2) /\
  thermal_run true s (mesh3 (N := RNum) adiabatic) (fun _ _ => P00) K (fun _ _ _ _ _ => mkfl (N := RNum) 0 0 0 0 0) 0 0 dts (l1 ++ l2) (repeat 300 8) = Ok (t', y').
Proof.
  intros s dts Fd.
  destruct (thermal_runs s (mesh3 (N := RNum) adiabatic) (fun _ _ => P00) (fun _ _ => K3 (N := RNum)) (fun _ _ _ _ _ => mkfl (N := RNum) 0 0 0 0 0) dts [pulse_source [(1/4, 0); (3/8, 1)]; ex_ebeam] (repeat 300 8) Fd ex_new) as (t' & y' & T).
  exists [pulse_source [(1/4, 0); (3/8, 1)]], [ex_ebeam], (fun _ _ => K3 (N := RNum)), t', y'. cbn [List.app].
  split; [reflexivity|]. split; [reflexivity|]. split; [apply mesh3_ok|]. split; [exact K3_settled|]. split; [exact ex_never_cools|exact T].
Qed.

(** Convection to surroundings at [c], beams of strength [b], start at [T0]. *)
Definition simple (b c e T0 : R) : scenario :=
  mksc (fun _ _ => true) (fun _ _ _ _ _ => mkpl (N := RNum) 1 2 1 1 1 0 [b]) (fun _ _ _ _ _ => mkfl (N := RNum) 1 5 c e c) (repeat T0 8).
Lemma simple_same b c e T0 b' c' T0' : same_material (simple b c e T0) (simple b' c' e T0').
Proof. split; intros; repeat split. Qed.
Lemma simple_combines ty a a' b c e T b' c' T' : combines (mesh3 (N := RNum) ty) [(a, simple b c e T); (a', simple b' c' e T')] (simple (a * b + a' * b') (a * c + a' * c') e (a * T + a' * T')).
Proof.
  split; [|split; [reflexivity|split; [|split]]].
  - intros w [<-|[<-|[]]]; cbn [snd]; (split; [apply simple_same|reflexivity]).
  - intros. rewrite !Sum_cons, Sum_nil. cbn [fst snd simple sc_on sc_laws heat_density pl_beams]. unfold heat_density; cbn [pl_beams]. rewrite !Sum_cons, !Sum_nil. ring.
  - intros. rewrite !Sum_cons, Sum_nil. cbn [fst snd simple sc_faces fl_conv]. cbn [num RNum]. ring.
  - intros j. rewrite !Sum_cons, Sum_nil. cbn [fst snd simple sc_start m_n mesh3]. unfold entry. do 8 (destruct j as [|j]; [cbn; ring|]). cbn. destruct j; ring.
Qed.
Lemma convective_quiet : no_radiation (mesh3 (N := RNum) convective).
Proof. unfold no_radiation, mesh3, faces3. cbn [m_faces]. repeat (apply Forall_cons; [intros _; vm_compute; reflexivity|]). apply Forall_nil. Qed.
Lemma combined_case : combines (mesh3 (N := RNum) convective) [(2, simple 3 10 0 20); (-1, simple 1 30 0 15)] (simple 5 (-10) 0 25) /\ no_radiation (mesh3 (N := RNum) convective) /\ mesh_ok (mesh3 (N := RNum) convective).
Proof.
  split; [|split; [exact convective_quiet|apply mesh3_ok]]. replace 5 with (2 * 3 + -1 * 1) by ring. replace (-10) with (2 * 10 + -1 * 30) by ring. replace 25 with (2 * 20 + -1 * 15) by ring.
  apply simple_combines.
Qed.
Lemma degrees_case : let A := simple 3 10 0 20 in let B := simple 3 283.15 0 293.15 in let c := 273.15 in same_material A A /\ same_material A B /\
  (forall k, (k < 8)%nat -> entry (sc_start B) k = entry (sc_start A) k + c) /\
  (forall n i a q T T', heat_density (sc_on B n i) (sc_laws B n i a q T) = heat_density (sc_on A n i) (sc_laws A n i a q T')) /\
  (forall n i f q T T', (fl_conv (sc_faces B n i f q T) : R) = fl_conv (sc_faces A n i f q T') + c).
Proof.
  cbv zeta. split; [apply simple_same|]. split; [apply simple_same|]. split; [|split].
  - intros k L. unfold entry, simple. cbn [sc_start]. do 8 (destruct k as [|k]; [cbn; lra|]). lia.
  - reflexivity.
  - intros. unfold simple. cbn [sc_faces fl_conv]. cbn [num RNum]. lra.
Qed.
(** With radiation the doubled run is not the double of the run. *)
Lemma radiation_differs : exists (m : heat_mesh RNum) A B dts j, mesh_ok m /\ free m j /\ combines m [(2, B)] A /\
  entry (final true false ForwardEuler m A dts) j <> Sum [(2, B)] (fun w => fst w * entry (final true false ForwardEuler m (snd w) dts) j).
Proof.
  exists (mesh3 (N := RNum) radiative), (simple 0 0 1 2), (simple 0 0 1 1), [1], 4%nat. split; [apply mesh3_ok|]. split; [split; [cbn; lia|cbn; intuition lia]|]. split.
  - pose proof (simple_combines radiative 2 0 0 0 1 1 0 0 0) as (A & L & H & Fc & St). split; [|split; [exact L|split; [|split]]].
    + intros w [<-|[]]. cbn [snd]. split; [apply simple_same|reflexivity].
    + intros. rewrite !Sum_cons, Sum_nil. cbn [fst snd simple sc_on sc_laws]. unfold heat_density. cbn [pl_beams]. rewrite !Sum_cons, !Sum_nil. ring.
    + intros. rewrite !Sum_cons, Sum_nil. cbn [fst snd simple sc_faces fl_conv]. cbn [num RNum]. ring.
    + intros j. rewrite !Sum_cons, Sum_nil. cbn [fst snd simple sc_start]. unfold entry. do 8 (destruct j as [|j]; [cbn; ring|]). cbn. destruct j; ring.
  - rewrite !Sum_cons, Sum_nil. cbn [fst snd]. unfold final, temperatures, simple. cbv -[Rplus Rmult Rminus Rdiv Ropp Rinv IZR Rlt Rle].
    lra.
Qed.
