(** MainProofs3.v -- C66: which simulation is started, and the exit status. *)
From Coq Require Import ZArith Bool List String Ascii Lia.
From Verif Require Import Base ScanPathModel MaterialModel MaterialSpec InputModel InputSpec InputProofs InputProofs2 InputProofs3 CellModel MainModel MainSpec MainProofs.
Import ListNotations.
Local Open Scope string_scope.

Lemma dispatch_ok e d dim n po k : (dim = 2 \/ dim = 3)%nat -> (po < 5)%nat -> dispatch e d dim n po k = if Nat.eqb n 1 then [mkinst e d dim 1%Z po k] else [].
Proof.
  intros D P. unfold dispatch, dims, materials_built, orders. assert (A : Z.eqb (Z.of_nat n) (-1) = false) by (apply Z.eqb_neq; lia).
  assert (B : Z.eqb (Z.of_nat n) 1 = Nat.eqb n 1) by (destruct (Nat.eqb_spec n 1); [subst; reflexivity|apply Z.eqb_neq; lia]).
  cbn [flat_map]. rewrite A, B. destruct (Nat.eqb n 1); destruct D as [-> | ->]; do 5 (destruct po as [|po]; [reflexivity|]); lia.
Qed.
Lemma dispatch_short e d dim n po k : (List.length (dispatch e d dim n po k) <= 1)%nat /\
  forall i, In i (dispatch e d dim n po k) -> i = mkinst e d dim 1%Z po k /\ n = 1%nat.
Proof.
  assert (Z : dispatch e d dim n po k = [] \/ (dispatch e d dim n po k = [mkinst e d dim 1%Z po k] /\ n = 1%nat)).
  { unfold dispatch, dims, materials_built, orders. assert (A : Z.eqb (Z.of_nat n) (-1) = false) by (apply Z.eqb_neq; lia).
    assert (B : Z.eqb (Z.of_nat n) 1 = Nat.eqb n 1) by (destruct (Nat.eqb_spec n 1); [subst; reflexivity|apply Z.eqb_neq; lia]).
    cbn [flat_map]. rewrite A, B. destruct (Nat.eqb_spec n 1) as [->|NE]; [|left; rewrite !andb_false_r; reflexivity].
    destruct (Nat.eqb_spec dim 2) as [->|N2]; [|destruct (Nat.eqb_spec dim 3) as [->|N3]; [|left; reflexivity]]; (do 5 (destruct po as [|po]; [right; split; reflexivity|]); left; reflexivity). }
  destruct Z as [-> | [-> ->]]; (split; [simpl; lia|]); intros i I; [destruct I|destruct I as [<-|[]]; auto].
Qed.
Lemma see_materials_ub ut ms ids : forall acc, see_materials ut ms ids acc <> UB.
Proof. induction ids as [|id ids IH]; intros acc; cbn [see_materials]; [discriminate|]. apply bind_ub; [apply child_ub|]. intros m. apply IH. Qed.

Section Main.
  Context {N : Num}.
  Variables (tbool : string -> option bool) (tuint : string -> option nat) (tdouble : string -> option N) (invalid : nat).
  Lemma parameters_ub ms : template_parameters tuint invalid ms <> UB.
  Proof. unfold template_parameters. apply bind_ub; [apply str_ub|]. intros f. apply bind_ub; [apply get_ub|]. intros n. apply bind_ub; [apply see_materials_ub|]. intros acc. apply bind_ub; [apply need_ub|]. intros _. apply bind_ub; [apply need_ub|]. discriminate. Qed.
  Lemma choose_ub db : choose tbool tuint invalid db <> UB.
  Proof.
    unfold choose. apply bind_ub; [destruct (child_opt db ["ensemble"]); discriminate|]. intros e. apply bind_ub; [apply get_ub|]. intros dim. apply bind_ub; [apply child_ub|]. intros ms. apply bind_ub; [apply parameters_ub|]. intros [[n po] ns]. cbv zeta.
    match goal with |- (if ?b then _ else _) <> UB => destruct b; discriminate end.
  Qed.
  Lemma parameters_n ms n po ns : template_parameters tuint invalid ms = Ok (n, po, ns) -> typed tuint ms ["n_materials"] n /\ (po < 5)%nat.
  Proof.
    unfold template_parameters. intros E. destruct (get_str ms ["property_format"]) as [f| |]; cbn [bind] in E; try discriminate. destruct (get tuint ms ["n_materials"]) as [n'| |] eqn:T; cbn [bind] in E; try discriminate. apply get_ok in T.
    destruct (see_materials (f =? "table") ms (find_ids ms n' invalid 0 []) (0%nat, 0%nat)) as [acc| |]; cbn [bind] in E; try discriminate. unfold need in E. destruct (Nat.ltb_spec (fst acc) 5); cbn [bind] in E; [|discriminate]. destruct (Nat.ltb 0 (snd acc) && Nat.ltb (snd acc) 4)%bool; cbn [bind] in E; [|discriminate].
    injection E as <- <- <-. auto.
  Qed.
  Lemma typed_cons {A} (tr : string -> option A) t n rest a : typed tr t (n :: rest) a <-> exists k, at_path t [n] k /\ typed tr k rest a.
  Proof.
    unfold typed. split.
    - intros (s & V & E). apply value_cons in V. destruct V as (k & A1 & V). exists k. split; [exact A1|]. exists s. auto.
    - intros (k & A1 & s & V & E). exists s. split; [apply value_cons; exists k; auto|exact E].
  Qed.
  Definition ens_ (db : ptree) : bool := match child_opt db ["ensemble"] with Some e => get_def tbool false e ["ensemble_simulation"] | None => false end.
  Definition dev_ (db : ptree) : bool := String.eqb (get_def Some "host" db ["memory_space"]) "device".
  Lemma ens_spec db : ens_ db = true <-> enabled tbool db ["ensemble"; "ensemble_simulation"].
  Proof.
    unfold ens_, enabled. rewrite typed_cons. destruct (child_opt db ["ensemble"]) as [e|] eqn:C.
    - apply child_at in C. rewrite def_false. unfold enabled. split; [intros T; exists e; auto|]. intros (k & K & T). rewrite (at_path_fun _ _ _ _ K C) in T. exact T.
    - split; [discriminate|]. intros (k & K & _). apply child_at in K. congruence.
  Qed.
  Lemma dev_spec db : dev_ db = true <-> value db ["memory_space"] "device".
  Proof.
    unfold dev_, get_def. destruct (get_opt Some db ["memory_space"]) as [s|] eqn:E.
    - apply opt_some in E. destruct E as (t & V & E). injection E as ->. rewrite String.eqb_eq. split; [intros ->; exact V|intros V'; exact (value_fun _ _ _ _ V V')].
    - split; [discriminate|]. intros V. assert (T : typed Some db ["memory_space"] "device") by (exists "device"; auto). apply opt_some in T. congruence.
  Qed.
  Lemma choose_eq db : choose tbool tuint invalid db = (do dim <- get tuint db ["geometry"; "dim"]; do ms <- child db ["materials"]; do '(n, p_order, n_states) <- template_parameters tuint invalid ms;
    if ens_ db && dev_ db then Throw else Ok (dispatch (ens_ db) (dev_ db) dim n p_order (states_of n_states))).
  Proof. unfold choose, ens_, dev_. destruct (child_opt db ["ensemble"]); reflexivity. Qed.
  Lemma choose_in db l : choose tbool tuint invalid db = Ok l -> (List.length l <= 1)%nat /\ forall i, In i l -> exists ms po ns dim, at_path db ["materials"] ms /\ template_parameters tuint invalid ms = Ok (1%nat, po, ns) /\
    typed tuint db ["geometry"; "dim"] dim /\ i = mkinst (ens_ db) (dev_ db) dim 1%Z po (states_of ns) /\ ens_ db && dev_ db = false.
  Proof.
    rewrite choose_eq. intros E. destruct (get tuint db ["geometry"; "dim"]) as [dim| |] eqn:D; cbn [bind] in E; try discriminate. apply get_ok in D. destruct (child db ["materials"]) as [ms| |] eqn:C; cbn [bind] in E; try discriminate. apply child_ok in C.
    destruct (template_parameters tuint invalid ms) as [[[n po] ns]| |] eqn:T; cbn [bind] in E; try discriminate. destruct (ens_ db && dev_ db) eqn:B; [discriminate|].
    assert (E' : l = dispatch (ens_ db) (dev_ db) dim n po (states_of ns)) by congruence. rewrite E'. destruct (dispatch_short (ens_ db) (dev_ db) dim n po (states_of ns)) as [S1 S2]. split; [exact S1|].
    intros i I. destruct (S2 i I) as [-> ->]. exists ms, po, ns, dim. auto.
  Qed.
  Lemma states_are ms n po ns f : typed tuint ms ["n_materials"] n -> value ms ["property_format"] f -> materials_present ms n -> (0 < n <= invalid)%nat ->
    template_parameters tuint invalid ms = Ok (n, po, ns) -> order_needed ms n f po /\ states_needed ms n (states_of ns) /\ (po < 5)%nat.
  Proof.
    intros T V M L E. destruct (parameters_spec tuint invalid ms n f T V M L n po ns E) as (_ & P & NS & O1 & O2 & S1 & S2). split; [split; [exact O1|exact O2]|]. split; [|exact P].
    assert (ns = 1 \/ ns = 2 \/ ns = 3)%nat as [-> | [-> | ->]] by lia; cbn.
    - split; intros [text X]; specialize (S1 _ _ X); lia.
    - split; [exact S2|]. intros [text X]; specialize (S1 _ _ X); lia.
    - exact S2.
  Qed.
  (** What a valid database has. *)
  Lemma valid_parts db : validate tbool tuint tdouble db = Ok tt -> exists dim ms n f, typed tuint db ["geometry"; "dim"] dim /\ (dim = 2 \/ dim = 3)%nat /\ at_path db ["materials"] ms /\
    typed tuint ms ["n_materials"] n /\ value ms ["property_format"] f /\ materials_present ms n /\ ((0 < n)%nat -> exists state text, seen ms n state text).
  Proof.
    intros V. apply validate_ok in V. destruct V as (th & me & dim & b & _ & _ & _ & _ & _ & _ & D1 & D2 & _ & (n & f & ms & M1 & M2 & _ & M3 & M4) & _). exists dim, ms, n, f. split; [exact D1|]. split; [exact D2|]. split; [exact M3|].
    split; [apply typed_cons in M1; destruct M1 as (k & K & M1); rewrite (at_path_fun _ _ _ _ K M3) in M1; exact M1|].
    split; [apply value_cons in M2; destruct M2 as (k & K & M2); rewrite (at_path_fun _ _ _ _ K M3) in M2; exact M2|].
    split; [intros id I; destruct (M4 id I) as (m & X & _); apply present_path; exists m; exact X|].
    intros N0. destruct (M4 0%nat N0) as (m & X & Y & (s & Z1 & Z2) & _). apply present_path in Z2. destruct Z2 as [st Z2]. destruct (Y s st Z1 Z2) as (W & _). apply present_path in W. destruct W as [c W].
    assert (exists state, nth_error ["solid"; "liquid"; "powder"] state = Some s) as [state ES] by (apply In_nth_error, Z1). exists state, (pdata c), 0%nat, s, "density". split; [exact N0|]. split; [exact ES|]. split; [left; reflexivity|].
    exists c. split; [|reflexivity]. apply path_cons. exists m. split; [exact X|]. apply path_cons. exists st. auto.
  Qed.
  Lemma value_down t n rest s k : at_path t [n] k -> value k rest s -> value t (n :: rest) s.
  Proof. intros K V. apply value_cons. exists k. auto. Qed.
  Lemma parameters_are ms n f : typed tuint ms ["n_materials"] n -> value ms ["property_format"] f -> materials_present ms n -> (0 < n <= invalid)%nat -> (exists state text, seen ms n state text) ->
    (too_long ms n f /\ template_parameters tuint invalid ms = Throw) \/ (~ too_long ms n f /\ exists po ns, template_parameters tuint invalid ms = Ok (n, po, ns)).
  Proof.
    intros T V M L (state & text & X). destruct (parameters_throw tuint invalid ms n f T V M L) as [A B]. destruct (template_parameters tuint invalid ms) as [[[n' po] ns]| |] eqn:E; [|left|exfalso; apply B; reflexivity].
    - right. split; [intros Y; assert (Ok (n', po, ns) = Throw) by (apply A; left; exact Y); discriminate|]. destruct (parameters_n _ _ _ _ E) as [T' _]. rewrite (typed_fun _ _ _ _ _ T' T) in *. eauto.
    - split; [|reflexivity]. destruct (proj1 A eq_refl) as [Y|Y]; [exact Y|]. exfalso. exact (Y _ _ X).
  Qed.

  (** ** The simulation asked for is started *)
  Theorem main_one (sim : instance -> res unit) db ms f : validate tbool tuint tdouble db = Ok tt -> at_path db ["materials"] ms -> typed tuint ms ["n_materials"] 1%nat -> value ms ["property_format"] f -> (1 <= invalid)%nat ->
    ~ too_long ms 1 f -> ~ (enabled tbool db ["ensemble"; "ensemble_simulation"] /\ value db ["memory_space"] "device") ->
    exists i, asked tbool tuint db i /\ main_program tbool tuint tdouble invalid sim (run_of db) = ([i], status_of (sim i)).
  Proof.
    intros V A T F L NL ND. destruct (valid_parts db V) as (dim & ms' & n & f' & D1 & D2 & A' & T' & F' & M & X). pose proof (at_path_fun _ _ _ _ A' A) as E1. subst ms'. pose proof (typed_fun _ _ _ _ _ T' T) as E2. subst n. pose proof (value_fun _ _ _ _ F' F) as E3. subst f'. clear A' T' F'.
    destruct (parameters_are ms 1 f T F M ltac:(lia) (X ltac:(lia))) as [[Y _]|[_ (po & ns & E)]]; [contradiction|]. destruct (states_are ms 1 po ns f T F M ltac:(lia) E) as (O & S & P).
    exists (mkinst (ens_ db) (dev_ db) dim 1%Z po (states_of ns)). split.
    - split; [exact D1|]. split; [exists 1%nat; split; [apply typed_cons; exists ms; auto|reflexivity]|]. split; [apply dev_spec|]. split; [apply ens_spec|]. exists ms, 1%nat, f. auto.
    - unfold main_program, run_of. cbn [help kokkos_help file_ outdir_fails]. rewrite V, choose_eq. rewrite (proj2 (get_ok _ _ _ _) D1). cbn [bind]. rewrite (proj2 (child_ok _ _ _) A). cbn [bind]. rewrite E. cbn [bind].
      destruct (ens_ db && dev_ db) eqn:B; [exfalso; apply ND; apply andb_prop in B; destruct B as [B1 B2]; split; [apply ens_spec, B1|apply dev_spec, B2]|].
      rewrite dispatch_ok by auto. cbn [Nat.eqb simulate]. destruct (sim _); reflexivity.
  Qed.
  Theorem main_one_stops (sim : instance -> res unit) db ms f n : validate tbool tuint tdouble db = Ok tt -> at_path db ["materials"] ms -> typed tuint ms ["n_materials"] n -> value ms ["property_format"] f -> (0 < n <= invalid)%nat ->
    too_long ms n f \/ (enabled tbool db ["ensemble"; "ensemble_simulation"] /\ value db ["memory_space"] "device") -> main_program tbool tuint tdouble invalid sim (run_of db) = ([], Ok 1%nat).
  Proof.
    intros V A T F L ND. destruct (valid_parts db V) as (dim & ms' & n' & f' & D1 & D2 & A' & T' & F' & M & X). pose proof (at_path_fun _ _ _ _ A' A) as E1. subst ms'. pose proof (typed_fun _ _ _ _ _ T' T) as E2. subst n'. pose proof (value_fun _ _ _ _ F' F) as E3. subst f'. clear A' T' F'.
    assert (C : choose tbool tuint invalid db = Throw); [|unfold main_program, run_of; cbn [help kokkos_help file_ outdir_fails]; rewrite V, C; reflexivity].
    rewrite choose_eq. rewrite (proj2 (get_ok _ _ _ _) D1). cbn [bind]. rewrite (proj2 (child_ok _ _ _) A). cbn [bind].
    destruct (parameters_are ms n f T F M L (X ltac:(lia))) as [[_ E]|[Y (po & ns & E)]]; rewrite E; cbn [bind]; [reflexivity|]. destruct ND as [ND|[E1 E2]]; [contradiction|]. apply ens_spec in E1. apply dev_spec in E2. rewrite E1, E2. reflexivity.
  Qed.
  (** Several materials: no instantiation matches, nothing is run and the program says it is done. *)
  Theorem main_many (sim : instance -> res unit) db ms f n : validate tbool tuint tdouble db = Ok tt -> at_path db ["materials"] ms -> typed tuint ms ["n_materials"] n -> value ms ["property_format"] f -> (2 <= n <= invalid)%nat ->
    ~ too_long ms n f -> ~ (enabled tbool db ["ensemble"; "ensemble_simulation"] /\ value db ["memory_space"] "device") ->
    main_program tbool tuint tdouble invalid sim (run_of db) = ([], Ok 0%nat).
  Proof.
    intros V A T F L NL ND. destruct (valid_parts db V) as (dim & ms' & n' & f' & D1 & D2 & A' & T' & F' & M & X). pose proof (at_path_fun _ _ _ _ A' A) as E1. subst ms'. pose proof (typed_fun _ _ _ _ _ T' T) as E2. subst n'. pose proof (value_fun _ _ _ _ F' F) as E3. subst f'. clear A' T' F'.
    destruct (parameters_are ms n f T F M ltac:(lia) (X ltac:(lia))) as [[Y _]|[_ (po & ns & E)]]; [contradiction|]. destruct (parameters_n _ _ _ _ E) as [_ P].
    unfold main_program, run_of. cbn [help kokkos_help file_ outdir_fails]. rewrite V, choose_eq. rewrite (proj2 (get_ok _ _ _ _) D1). cbn [bind]. rewrite (proj2 (child_ok _ _ _) A). cbn [bind]. rewrite E. cbn [bind].
    destruct (ens_ db && dev_ db) eqn:B; [exfalso; apply ND; apply andb_prop in B; destruct B as [B1 B2]; split; [apply ens_spec, B1|apply dev_spec, B2]|].
    rewrite dispatch_ok by auto. destruct (Nat.eqb_spec n 1); [lia|]. reflexivity.
  Qed.

  (** ** Every run *)
  Lemma simulate_one sim l : (List.length l <= 1)%nat -> simulate sim l = match l with [] => ([], Ok tt) | i :: _ => ([i], match sim i with Ok _ => Ok tt | Throw => Throw | UB => UB end) end.
  Proof. destruct l as [|i [|j l]]; simpl; intros H; [reflexivity| |lia]. destruct (sim i); reflexivity. Qed.
  Theorem main_every (sim : instance -> res unit) c started r : main_program tbool tuint tdouble invalid sim c = (started, r) ->
    (started = [] /\ (r = Ok 0%nat \/ r = Ok 1%nat)) \/
    (exists i db ms, started = [i] /\ r = status_of (sim i) /\ help c = false /\ kokkos_help c = false /\ outdir_fails c = false /\ file_ c = Tree db /\ valid_input tbool tuint tdouble db /\
       at_path db ["materials"] ms /\ typed tuint ms ["n_materials"] 1%nat /\ ((1 <= invalid)%nat -> asked tbool tuint db i) /\ ~ (i_ensemble i = true /\ i_device i = true)).
  Proof.
    unfold main_program. destruct (help c) eqn:H1; [intros E; injection E as <- <-; left; auto|]. destruct (kokkos_help c) eqn:H2; [intros E; injection E as <- <-; left; auto|]. destruct (file_ c) as [| |db] eqn:H3; try (intros E; injection E as <- <-; left; auto).
    destruct (validate tbool tuint tdouble db) as [[]| |] eqn:V; [|intros E; injection E as <- <-; left; auto|exfalso; exact (validate_total tbool tuint tdouble db V)]. destruct (outdir_fails c) eqn:H4; [intros E; injection E as <- <-; left; auto|].
    destruct (choose tbool tuint invalid db) as [l| |] eqn:C; [|intros E; injection E as <- <-; left; auto|exfalso; exact (choose_ub db C)]. destruct (choose_in db l C) as [L I]. rewrite (simulate_one sim l L). destruct l as [|i l]; [intros E; injection E as <- <-; left; auto|].
    destruct (I i (or_introl eq_refl)) as (ms & po & ns & dim & A & T & D & EI & B). intros E. right. exists i, db, ms. assert (started = [i]) by congruence. split; [assumption|]. split; [unfold status_of; destruct (sim i); congruence|].
    repeat (split; [assumption || reflexivity|]). split; [apply validate_ok, V|]. split; [exact A|]. destruct (parameters_n _ _ _ _ T) as [TN _]. split; [exact TN|]. split.
    - intros LI. destruct (valid_parts db V) as (dim' & ms' & n' & f & D1 & D2 & A' & T' & F & M & X). pose proof (at_path_fun _ _ _ _ A' A) as Q1. subst ms'. pose proof (typed_fun _ _ _ _ _ T' TN) as Q2. subst n'. destruct (states_are ms 1 po ns f TN F M ltac:(lia) T) as (O & S & P).
      subst i. split; [exact D|]. split; [exists 1%nat; split; [apply typed_cons; exists ms; auto|reflexivity]|]. split; [apply dev_spec|]. split; [apply ens_spec|]. exists ms, 1%nat, f. auto.
    - subst i. cbn [i_ensemble i_device]. intros [E1 E2]. rewrite E1, E2 in B. discriminate.
  Qed.
  Theorem main_invalid (sim : instance -> res unit) c db : file_ c = Tree db -> ~ valid_input tbool tuint tdouble db -> main_program tbool tuint tdouble invalid sim c = ([], Ok 0%nat).
  Proof. intros F V. apply validate_throws in V. unfold main_program. destruct (help c); [reflexivity|]. destruct (kokkos_help c); [reflexivity|]. rewrite F, V. reflexivity. Qed.
End Main.
