(** OutputExamples.v -- concrete cases for C63 and C64. *)
From Coq Require Import ZArith QArith Bool List String Ascii Lia Reals Lra Floats.
From Verif Require Import Base BaseFacts InputModel CellModel EnsembleModel OutputModel OutputSpec OutputProofs OutputProofs2 OutputProofs3.
Import ListNotations.
Local Open Scope string_scope.

(** ** C63 *)
Definition ex_outs : list (nat * QNum) := [(0%nat, 0%Q); (5%nat, (1 # 2)%Q); (10%nat, 1%Q)].
Lemma ex_outs_distinct : NoDup (map fst ex_outs).
Proof. cbn [ex_outs map fst]. repeat constructor; cbn [In]; lia. Qed.
Lemma ex_pvtu : lookup "/tmp/o/ptc.5.pvtu" (run_files 2 (mkpost (N := QNum) "ptc" "/tmp/o/" []) ex_outs true) = Some (Pvtu (N := QNum) ["ptc.5.0.vtu"; "ptc.5.1.vtu"]).
Proof. vmrefl. Qed.
Lemma ex_pvd : lookup "/tmp/o/ptc.pvd" (run_files 2 (mkpost (N := QNum) "ptc" "/tmp/o/" []) ex_outs true) = Some (Pvd (N := QNum) [(0%Q, "/tmp/o/ptc.0.pvtu"); ((1 # 2)%Q, "/tmp/o/ptc.5.pvtu"); (1%Q, "/tmp/o/ptc.10.pvtu")]).
Proof. vmrefl. Qed.
Lemma ex_names : map fst (run_files 2 (mkpost (N := QNum) "ptc" "" []) [(0%nat, 0%Q); (7%nat, 1%Q)] true) =
  ["ptc.0.0.vtu"; "ptc.0.pvtu"; "ptc.7.0.vtu"; "ptc.7.pvtu"; "ptc.pvd"; "ptc.0.1.vtu"; "ptc.7.1.vtu"].
Proof. vmrefl. Qed.
Lemma ex_option : option_dir "/home/u" "results" = Some "/home/u/results/" /\ option_dir "/" "r" = Some "/r/" /\ option_dir "/home/u" "/tmp" = Some "/tmp/".
Proof. repeat split; vmrefl. Qed.
Lemma ex_slash : ends_with_slash "/tmp/o/" /\ no_slash "ptc" /\ absolute "/tmp/o/ptc" /\ resolves "/tmp/o/ptc.5.pvtu" "ptc.5.0.vtu" "/tmp/o/ptc.5.0.vtu".
Proof.
  split; [right; exists "/tmp/o"; reflexivity|]. split; [unfold no_slash; cbn; intuition discriminate|]. split; [exists "tmp/o/ptc"; reflexivity|].
  right. split; [intros [x E]; discriminate E|vmrefl].
Qed.
(** A relative output directory. *)
Lemma relative_broken : exists records, lookup "results/ptc.pvd" (run_files 1 (mkpost (N := QNum) "ptc" "results/" []) ex_outs true) = Some (Pvd records) /\
  nth_error records 1 = Some ((1 # 2)%Q, "results/ptc.5.pvtu") /\ forall target, resolves "results/ptc.pvd" "results/ptc.5.pvtu" target ->
  lookup target (run_files 1 (mkpost (N := QNum) "ptc" "results/" []) ex_outs true) = None.
Proof.
  exists [(0%Q, "results/ptc.0.pvtu"); ((1 # 2)%Q, "results/ptc.5.pvtu"); (1%Q, "results/ptc.10.pvtu")]. split; [vmrefl|]. split; [vmrefl|]. intros target [[[x E] _]|[_ ->]]; [discriminate E|]. vmrefl.
Qed.
(** An output directory without the final '/'. *)
Lemma no_final_slash : lookup "/tmp/o/ptc.5.0.vtu" (run_files 1 (mkpost (N := QNum) "ptc" "/tmp/o" []) ex_outs true) = None /\
  exists pieces, lookup "/tmp/optc.5.pvtu" (run_files 1 (mkpost (N := QNum) "ptc" "/tmp/o" []) ex_outs true) = Some (Pvtu pieces) /\
  forall name target, In name pieces -> resolves "/tmp/optc.5.pvtu" name target -> lookup target (run_files 1 (mkpost (N := QNum) "ptc" "/tmp/o" []) ex_outs true) = None.
Proof.
  split; [vmrefl|]. exists ["ptc.5.0.vtu"]. split; [vmrefl|]. intros name target I R. cbn in I. destruct I as [<-|[]]. destruct R as [[[x E] _]|[_ ->]]; [discriminate E|]. vmrefl.
Qed.
(** A prefix with a directory in it. *)
Lemma slash_in_prefix : exists pieces, lookup "sub/ptc.5.pvtu" (run_files 1 (mkpost (N := QNum) "sub/ptc" "" []) ex_outs true) = Some (Pvtu pieces) /\
  forall name target, In name pieces -> resolves "sub/ptc.5.pvtu" name target -> lookup target (run_files 1 (mkpost (N := QNum) "sub/ptc" "" []) ex_outs true) = None.
Proof.
  exists ["sub/ptc.5.0.vtu"]. split; [vmrefl|]. intros name target I R. cbn in I. destruct I as [<-|[]]. destruct R as [[[x E] _]|[_ ->]]; [discriminate E|]. vmrefl.
Qed.
Definition leaf (s : string) : ptree := Node s [].
Definition out_db : ptree := Node "" [("filename_prefix", leaf "ptc"); ("output_dir", leaf "/tmp/o/")].
Lemma coupled_ignores : get_def Some "" out_db ["output_dir"] = "/tmp/o/" /\ (exists p, make_post (N := QNum) out_db None = Ok p /\ o_dir p = "/tmp/o/") /\
  forall p n outs fin name, make_post_coupled (N := QNum) out_db None = Ok p -> In name (map fst (run_files n p outs fin)) -> ~ exists rest, name = "/tmp/o/" ++ rest.
Proof.
  split; [vmrefl|]. split; [exists (mkpost (N := QNum) "ptc" "/tmp/o/" []); split; vmrefl|]. intros p n outs fin name M I [rest E]. destruct (make_coupled_files out_db None p "ptc" n outs fin name M eq_refl I) as [r X]. rewrite X in E. discriminate E.
Qed.
Lemma experiment_ignores : forall name, In name (map fst (ensemble_files (N := QNum) "ptc" "/tmp/o/" [] [] 1 [(3%nat, 0%Q)])) -> ~ exists rest, name = "/tmp/o/" ++ rest.
Proof.
  intros name I [rest ->]. change (map fst (ensemble_files (N := QNum) "ptc" "/tmp/o/" [] [] 1 [(3%nat, 0%Q)])) with ["ptc.expt.3.0.vtu"; "ptc.expt.3.pvtu"] in I.
  cbn [In] in I. destruct I as [I|[I|[]]]; discriminate I.
Qed.
Lemma ex_ensemble : map fst (ensemble_files (N := QNum) "e" "" [(0%nat, 1%nat); (1%nat, 1%nat)] [(0%nat, 0%Q)] 1 [(3%nat, 0%Q)]) =
  ["e_m0.0.0.vtu"; "e_m0.0.pvtu"; "e_m0.pvd"; "e_m1.0.0.vtu"; "e_m1.0.pvtu"; "e_m1.pvd"; "e.expt.3.0.vtu"; "e.expt.3.pvtu"].
Proof. vmrefl. Qed.
(** Restart from the checkpoint of step 5: the outputs of the steps before are not in the .pvd file any more, although their files are there. *)
Lemma restart_forgets : let first := run_files 1 (mkpost (N := QNum) "ptc" "" []) [(0%nat, 0%Q); (5%nat, (1 # 2)%Q)] false in
  let second := run_files 1 (mkpost (N := QNum) "ptc" "" []) [(5%nat, (1 # 2)%Q); (10%nat, 1%Q)] true in
  lookup "ptc.0.0.vtu" (first ++ second)%list = Some (Vtu (N := QNum) 0%Q) /\ lookup "ptc.0.pvtu" (first ++ second)%list = Some (Pvtu (N := QNum) ["ptc.0.0.vtu"]) /\
  lookup "ptc.pvd" (first ++ second)%list = Some (Pvd (N := QNum) [((1 # 2)%Q, "ptc.5.pvtu"); (1%Q, "ptc.10.pvtu")]).
Proof. cbv zeta. repeat split; vmrefl. Qed.

(** ** C64 *)
Lemma ex_strain : strain_point (N := QNum) 2 (fun j k => match j, k with 0%nat, 0%nat => 1%Q | 0%nat, _ => 3%Q | _, 0%nat => (-1)%Q | _, _ => 4%Q end) [9%Q; 9%Q; 9%Q; 9%Q] = Ok [1; 1; 1; 4]%Q.
Proof. vmrefl. Qed.
Lemma strain_short : strain_point (N := QNum) 2 (fun _ _ => 1%Q) [0%Q; 0%Q; 0%Q] = UB.
Proof. vmrefl. Qed.
Definition ex_cells : list (bool * nat) := [(true, 7%nat); (false, 4%nat); (true, 2%nat)].
Lemma ex_cells_distinct : NoDup (map snd (filter fst ex_cells)).
Proof. cbn. repeat constructor; cbn [In]; lia. Qed.
Definition ex_state (s i : nat) : QNum := match s, i with 0%nat, 0%nat => 1%Q | 1%nat, 1%nat => (1 # 4)%Q | 2%nat, 1%nat => (3 # 4)%Q | _, _ => 0%Q end.
Lemma ex_material : material_dataout (N := QNum) 3 ex_state (dofs_map_from 0 ex_cells) ex_cells = Ok [(0, 0, 1); (0, 0, 0); (3 # 4, 1 # 4, 0)]%Q.
Proof. vmrefl. Qed.
Lemma ex_material_throw : material_dataout (N := QNum) 3 ex_state [(7%nat, 0%nat)] ex_cells = Throw.
Proof. vmrefl. Qed.

(** In exact arithmetic. *)
Local Open Scope R_scope.
Lemma strain_R dim (g : nat -> nat -> R) (out : list R) : List.length out = (dim * dim)%nat ->
  exists v : list R, strain_point (N := RNum) dim g out = Ok v /\ (forall j k, (j < dim)%nat -> (k < dim)%nat -> entry dim v j k = entry dim v k j) /\
  ((forall j k, g j k = - g k j) -> forall x, In x v -> x = 0) /\
  ((forall j k, g j k = g k j) -> forall j k, (j < dim)%nat -> (k < dim)%nat -> entry dim v j k = Some (g j k)).
Proof.
  intros L. assert (X : exists v : list R, strain_point (N := RNum) dim g out = Ok v /\ List.length v = (dim * dim)%nat /\ forall j k, (j < dim)%nat -> (k < dim)%nat -> @entry R dim v j k = Some ((g j k + g k j) / 2)) by exact (strain_ok (N := RNum) dim g out L).
  destruct X as (v & E & LV & G). exists v. split; [exact E|]. split; [|split].
  - intros j k J K. rewrite (G j k), (G k j) by assumption. f_equal. lra.
  - intros A x I. apply In_nth_error in I. destruct I as [i I]. assert (B : (i < dim * dim)%nat) by (rewrite <- LV; apply nth_error_Some; rewrite I; discriminate).
    assert (D0 : dim <> 0%nat) by (intros ->; simpl in B; lia). specialize (G (i / dim)%nat (i mod dim)%nat). unfold entry in G.
    replace (i / dim * dim + i mod dim)%nat with i in G by (rewrite (Nat.div_mod i dim D0) at 1; lia). rewrite I in G. assert (X := G ltac:(apply Nat.div_lt_upper_bound; lia) ltac:(apply Nat.mod_upper_bound, D0)).
    injection X as ->. rewrite (A (i / dim)%nat (i mod dim)%nat). lra.
  - intros A j k J K. rewrite (G j k) by assumption. f_equal. rewrite (A k j). lra.
Qed.
Lemma material_sum (state : nat -> nat -> R) cells : NoDup (map snd (filter fst cells)) -> (forall i, state 0%nat i + state 1%nat i + state 2%nat i = 1) ->
  exists v : list (R * R * R), material_dataout (N := RNum) 3 state (dofs_map_from 0 cells) cells = Ok v /\
  forall k b d p l s, nth_error cells k = Some (b, d) -> nth_error v k = Some (p, l, s) -> p + l + s = if b then 1 else 0.
Proof.
  intros ND H. destruct (material_numbered (N := RNum) 3 state cells ND) as (v & E & _ & F). exists v. split; [exact E|]. intros k b d p l s C X. destruct (F k) as [F1 F2].
  destruct b; [pose proof (eq_trans (eq_sym X) (F2 d C)) as Y|pose proof (eq_trans (eq_sym X) (F1 d C)) as Y]; injection Y as -> -> ->; cbn [Nat.ltb Nat.leb].
  - rewrite <- (H (owned_before cells k)). cbn [num RNum]. lra.
  - cbn. lra.
Qed.
