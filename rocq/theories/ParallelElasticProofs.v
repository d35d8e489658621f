(** ParallelElasticProofs.v -- what the processes compute together. *)
From Coq Require Import Reals ZArith List Bool Lra Lia.
From Verif Require Import Base BaseFacts CellModel AssimilationSpec InputModel HeatModel HeatSpec HeatProofs ElementModel ElementSpec StressModel StressSpec StressProofs2 ElasticModel ElasticSpec ElasticProofs ElasticProofs2 ElasticProofs3 ElasticProofs4 ElasticProofs6 ElasticProofs7
  ParallelElasticModel ParallelElasticSpec.
Import ListNotations.
Local Open Scope R_scope.

Lemma Sum_count {A} (P : A -> bool) (x : R) l : Sum l (fun a => if P a then x else 0) = INR (List.length (filter P l)) * x.
Proof.
  induction l as [|a l IH]; [rewrite Sum_nil; cbn; ring|]. rewrite Sum_cons, IH. cbn [filter]. destruct (P a); [|ring]. cbn [List.length]. rewrite S_INR. ring.
Qed.
Lemma seen_nth own cells pos : nth_error (seen_by (N := RNum) own cells) pos = option_map (fun c => owned_by own (pos, c)) (nth_error cells pos).
Proof.
  unfold seen_by, numbered. rewrite nth_error_map. assert (G : forall k (l : list (ecell RNum)) pos, nth_error (combine (seq k (List.length l)) l) pos = option_map (fun c => ((k + pos)%nat, c)) (nth_error l pos)).
  { intros k l. revert k. induction l as [|a l IH]; intros k p; [destruct p; reflexivity|]. cbn [List.length seq combine]. destruct p as [|p]; cbn [nth_error option_map]; [rewrite Nat.add_0_r; reflexivity|]. rewrite IH. destruct (nth_error l p); cbn [option_map]; [|reflexivity]. do 2 f_equal. lia. }
  rewrite G. destruct (nth_error cells pos); reflexivity.
Qed.
Lemma seen_length own cells : List.length (seen_by (N := RNum) own cells) = List.length cells.
Proof. unfold seen_by, numbered. rewrite map_length, combine_length, seq_length. lia. Qed.
Lemma own_cell own pos (c : ecell RNum) : own pos = true -> j_owned (ec_joint c) = true -> owned_by own (pos, c) = c.
Proof. intros O1 O2. destruct c as [[o t m] ? ? ? ? ? ? ? ?]. cbn in *. unfold owned_by. cbn. now rewrite O1, O2. Qed.
Lemma seen_takes own pos (c : ecell RNum) : takes_part (owned_by (N := RNum) own (pos, c)) = own pos && j_mech (ec_joint c).
Proof. reflexivity. Qed.
Lemma seen_ok own d n cells : List.Forall (cell_ok d n) cells -> List.Forall (cell_ok d n) (seen_by (N := RNum) own cells).
Proof.
  intros H. apply Forall_forall. intros c I. unfold seen_by in I. apply in_map_iff in I. destruct I as ([pos c0] & <- & I). apply in_combine_r in I. rewrite Forall_forall in H. exact (H c0 I).
Qed.
Lemma numbered_seen own (cells : list (ecell RNum)) : numbered (seen_by (N := RNum) own cells) = map (fun pc => (fst pc, owned_by own pc)) (numbered cells).
Proof.
  unfold seen_by, numbered. rewrite map_length, combine_length, seq_length, Nat.min_id. generalize 0%nat. induction cells as [|c cells IH]; intros k; [reflexivity|]. cbn [List.length seq combine map fst]. f_equal. apply IH.
Qed.
Lemma in_numbered_pos {A} (l : list A) p : In p (numbered l) -> (fst p < List.length l)%nat.
Proof. intros I. apply in_numbered in I. apply nth_error_Some. congruence. Qed.

(** Contributions of the own cells of all processes are those of all cells. *)
Lemma shared_sum {A} (cells : list (ecell RNum)) (L : list A) (own : A -> nat -> bool) (G : A -> nat -> ecell RNum -> R) (W : nat -> ecell RNum -> R) : one_process cells ->
  (forall pos, (pos < List.length cells)%nat -> List.length (filter (fun a => own a pos) L) = 1%nat) ->
  (forall a pos c, In a L -> nth_error cells pos = Some c -> own a pos = true -> takes_part c = true -> G a pos c = W pos c) ->
  Sum L (fun a => Sum (numbered (seen_by (N := RNum) (own a) cells)) (fun pc => if takes_part (snd pc) then G a (fst pc) (snd pc) else 0)) =
  Sum (numbered cells) (fun pc => if takes_part (snd pc) then W (fst pc) (snd pc) else 0).
Proof.
  intros O1 Sh E. rewrite (Sum_ext _ (fun a => Sum (numbered cells) (fun pc => if own a (fst pc) && j_mech (ec_joint (snd pc)) then G a (fst pc) (owned_by (own a) pc) else 0))).
  - rewrite Sum_swap. apply Sum_ext. intros [pos c] I. pose proof (in_numbered _ _ I) as En. cbn [fst snd] in *. assert (Oc : j_owned (ec_joint c) = true) by (unfold one_process in O1; rewrite Forall_forall in O1; exact (O1 c (nth_error_In _ _ En))).
    assert (T : takes_part c = j_mech (ec_joint c)) by (unfold takes_part; rewrite Oc; reflexivity). rewrite T.
    transitivity (Sum L (fun a => if own a pos then (if j_mech (ec_joint c) then W pos c else 0) else 0)).
    + apply Sum_ext. intros a Ia. destruct (own a pos) eqn:Ea; cbn [andb]; [|reflexivity]. destruct (j_mech (ec_joint c)) eqn:Em; [|reflexivity]. rewrite (own_cell (own a) pos c Ea Oc). exact (E a pos c Ia En Ea ltac:(rewrite T; reflexivity)).
    + rewrite Sum_count, (Sh pos (in_numbered_pos _ _ I)). cbn [INR]. ring.
  - intros a _. rewrite numbered_seen, Sum_map. apply Sum_ext. intros [pos c] _. reflexivity.
Qed.
Lemma Sum_solid {B} (cells : list (ecell RNum)) (f : ecell RNum -> list B) (g : B -> R) :
  Sum (flat_map f (filter takes_part cells)) g = Sum (numbered cells) (fun pc => if takes_part (snd pc) then Sum (f (snd pc)) g else 0).
Proof. rewrite Sum_flat_map, Sum_filter. symmetry. exact (Sum_indexed_snd (fun c => if takes_part c then Sum (f c) g else 0) cells). Qed.

Lemma vector_eq (n : nat) (u v : list R) : List.length u = n -> List.length v = n -> (forall z, ip z u = ip z v) -> u = v.
Proof. intros Lu Lv E. apply (nth_ext _ _ 0 0); [congruence|]. intros j _. specialize (E (hat j)). rewrite !ip_hat in E. exact E. Qed.

Lemma Forall2_in_combine {A B} (P : A -> B -> Prop) la lb : Forall2 P la lb -> forall a b, In (a, b) (combine la lb) -> P a b.
Proof. induction 1 as [|a b la lb Pab _ IH]; intros x y I; [destruct I|]. destruct I as [I|I]; [injection I as <- <-; exact Pab|exact (IH x y I)]. Qed.
Section Shared.
  Variables (d n : nat) (C : constraints RNum) (cells : list (ecell RNum)) (owns : list (nat -> bool)).
  Hypothesis Hd : d = 2%nat \/ d = 3%nat.
  Hypothesis Cok : closed_ok n C.
  Hypothesis H : List.Forall (cell_ok d n) cells.
  Hypothesis One : one_process cells.
  Hypothesis Sh : shared cells owns.

  Lemma shared_vmult x : mvmultR n (shared_matrix (N := RNum) C cells owns) x = mvmultR n (assemble_matrix (N := RNum) C cells) x.
  Proof.
    apply (vector_eq n); [apply mvmult_length|apply mvmult_length|]. intros z. rewrite !ip_mvmult.
    - unfold shared_matrix. rewrite Sum_flat_map. unfold assemble_matrix. etransitivity; [apply Sum_ext; intros own _; apply Sum_solid|]. etransitivity; [|symmetry; apply Sum_solid].
      exact (shared_sum cells owns (fun own => own) (fun _ _ c => Sum (distribute_matrix C c) (fun e => z (fst (fst e)) * (snd e * nth (snd (fst e)) x 0)))
        (fun _ c => Sum (distribute_matrix C c) (fun e => z (fst (fst e)) * (snd e * nth (snd (fst e)) x 0))) One Sh (fun a pos c _ _ _ _ => eq_refl)).
    - exact (assembled_entries n d C cells Cok H).
    - apply Forall_forall. intros e I. apply in_flat_map in I. destruct I as (own & _ & I). exact (proj1 (Forall_forall _ _) (assembled_entries n d C _ Cok (seen_ok own d n cells H)) e I).
  Qed.
  Lemma cg_same (A B : matrix RNum) b tol iterate : (forall x, mvmultR n A x = mvmultR n B x) -> forall left k x, cgR n A b tol iterate left k x = cgR n B b tol iterate left k x.
  Proof.
    intros E left. induction left as [|left IH]; intros k x; unfold cgR; cbn [cg].
    - assert (R1 : residual (N := RNum) n A b x = residual (N := RNum) n B b x) by (unfold residual; f_equal; exact (E x)). rewrite R1. reflexivity.
    - assert (R1 : residual (N := RNum) n A b x = residual (N := RNum) n B b x) by (unfold residual; f_equal; exact (E x)). rewrite R1. destruct (nleb RNum _ _); [reflexivity|]. apply IH.
  Qed.
  Lemma shared_displacement b iterate : displacement (N := RNum) n C (shared_matrix C cells owns) b iterate = displacement (N := RNum) n C (assemble_matrix C cells) b iterate.
  Proof. unfold displacement. exact (f_equal (fun r => bind r _) (cg_same _ _ b _ iterate shared_vmult _ 0%nat _)). Qed.

  (** *** Right hand side *)
  Lemma ip_add z (a b : list R) : List.length a = List.length b -> ip z (map2 (N := RNum) (fun p q => (p + q)%R) a b) = ip z a + ip z b.
  Proof.
    clear. revert z b. induction a as [|x a IH]; intros z [|y b] L; try discriminate; [cbn; ring|]. injection L as L. unfold map2 in *. cbn [combine map ip fst snd]. rewrite (IH _ b L). cbn [num RNum]. ring.
  Qed.
  Definition flags_from (own : nat -> bool) (k : nat) (cs : list (ecell RNum)) (ms : list bool) : list bool :=
    map snd (filter (fun pf : nat * bool => own (fst pf)) (combine (map fst (filter (fun pc : nat * ecell RNum => j_thermal (ec_joint (snd pc))) (combine (seq k (List.length cs)) cs))) ms)).
  Lemma flags_spec own : forall (cs : list (ecell RNum)) k ms, one_process cs -> List.length ms = List.length (filter (fun c : ecell RNum => j_owned (ec_joint c) && j_thermal (ec_joint c)) cs) ->
    List.length (flags_from own k cs ms) = List.length (filter (fun c : ecell RNum => j_owned (ec_joint c) && j_thermal (ec_joint c)) (map (owned_by own) (combine (seq k (List.length cs)) cs))) /\
    forall pos c, nth_error cs pos = Some c -> own (k + pos)%nat = true -> j_thermal (ec_joint c) = true ->
      nth (flag_position (map ec_joint (map (owned_by own) (combine (seq k (List.length cs)) cs))) pos) (flags_from own k cs ms) false = nth (flag_position (map ec_joint cs) pos) ms false.
  Proof.
    clear. induction cs as [|a cs IH]; intros k ms O1 L; [split; [destruct ms; reflexivity|intros [|?] c E; discriminate]|].
    inversion O1 as [|? ? Oa O1']; subst. cbn [filter List.length] in L. rewrite Oa in L. cbn [andb] in L. unfold flags_from. cbn [List.length seq combine filter snd fst map].
    assert (XO : j_owned (ec_joint (owned_by (N := RNum) own (k, a))) = own k) by reflexivity. assert (XT : j_thermal (ec_joint (owned_by (N := RNum) own (k, a))) = j_thermal (ec_joint a)) by reflexivity.
    generalize dependent (owned_by (N := RNum) own (k, a)). intros X XO XT. rewrite XO, XT.
    destruct (j_thermal (ec_joint a)) eqn:Ta; cbn [map fst].
    - destruct ms as [|m ms]; [discriminate|]. cbn [List.length] in L. injection L as L. destruct (IH (S k) ms O1' L) as [LL PP]. cbn [combine filter fst].
      unfold flags_from in LL, PP. split; [destruct (own k); cbn [andb map snd List.length]; rewrite LL; reflexivity|].
      intros [|pos] c E Oc Tc.
      + rewrite Nat.add_0_r in Oc. rewrite Oc. cbn [map snd]. unfold flag_position. cbn. reflexivity.
      + cbn [nth_error] in E. replace (k + S pos)%nat with (S k + pos)%nat in Oc by lia. specialize (PP pos c E Oc Tc). unfold flag_position in *. cbn [firstn filter map]. rewrite Oa, Ta, XO, XT.
        destruct (own k); cbn [andb map snd List.length nth]; exact PP.
    - destruct (IH (S k) ms O1' L) as [LL PP]. rewrite andb_false_r. unfold flags_from in LL, PP. split; [exact LL|].
      intros [|pos] c E Oc Tc; [injection E as <-; congruence|]. cbn [nth_error] in E. replace (k + S pos)%nat with (S k + pos)%nat in Oc by lia. specialize (PP pos c E Oc Tc). unfold flag_position in *. cbn [firstn filter map]. rewrite Oa, Ta, XO, XT, andb_false_r. cbn [andb]. exact PP.
  Qed.
  Lemma process_thermal references t own tp : thermal_ok references t cells -> has_thermal cells t own tp -> thermal_ok references tp (seen_by (N := RNum) own cells).
  Proof.
    intros ((sol & ini & Er & Ma) & Lm & Ta) (Em & _). destruct (flags_spec own cells 0 (td_melted t) One Lm) as [LL _]. split; [|split].
    - exists sol, ini. split; [exact Er|]. rewrite Forall_forall in Ma |- *. intros c I. unfold seen_by in I. apply in_map_iff in I. destruct I as ([pos c0] & <- & I). apply in_combine_r in I. exact (Ma c0 I).
    - rewrite Em. exact LL.
    - rewrite Forall_forall in Ta |- *. intros c I T. unfold seen_by in I. apply in_map_iff in I. destruct I as ([pos c0] & <- & I). apply in_combine_r in I. unfold owned_by. cbn [ec_joint j_thermal snd]. apply Ta; [exact I|].
      rewrite seen_takes in T. apply andb_prop in T. unfold takes_part. unfold one_process in One. rewrite Forall_forall in One. rewrite (One c0 I). exact (proj2 T).
  Qed.
  Lemma process_reference references t own tp pos c : thermal_ok references t cells -> has_thermal cells t own tp -> nth_error cells pos = Some c -> own pos = true -> takes_part c = true ->
    reference references (td_melted tp) (seen_by (N := RNum) own cells) pos c = reference references (td_melted t) cells pos c.
  Proof.
    intros (_ & Lm & Ta) (Em & _) E Oc T. destruct (flags_spec own cells 0 (td_melted t) One Lm) as [_ PP]. rewrite Forall_forall in Ta. unfold reference. rewrite Em.
    pose proof (PP pos c E Oc (Ta c (nth_error_In _ _ E) T)) as Q. unfold flags_from in Q. unfold indexed, seen_by, numbered. rewrite Q. reflexivity.
  Qed.
  Lemma rhs_shared references t forces (ts : list (thermal_data RNum)) : thermal_ok references t cells -> forces_ok d forces -> Forall2 (has_thermal cells t) owns ts ->
    shared_rhs (N := RNum) d n references forces C cells (combine owns ts) = assemble_rhs (N := RNum) d n references (Some t) forces C cells.
  Proof.
    intros TH Fo F2. destruct (rhs_work d n references t forces C cells Cok H TH Fo) as (b & Eb & Lb & Pb). cbn [num RNum] in *. rewrite Eb.
    destruct (foldR_ip (add_rhs (N := RNum) d n references forces C cells)
      (fun z ot => thermal_work d references (snd ot) C (seen_by (N := RNum) (fst ot) cells) z + force_work d forces C (seen_by (N := RNum) (fst ot) cells) z) n (combine owns ts)) with (d := repeat 0 n) as (b' & Eb' & Lb' & Pb').
    - intros r [own tp] I Lr. pose proof (Forall2_in_combine _ _ _ F2 _ _ I) as HT. destruct (rhs_work d n references tp forces C (seen_by (N := RNum) own cells) Cok (seen_ok own d n cells H) (process_thermal references t own tp TH HT) Fo) as (c & Ec & Lc & Pc).
      unfold add_rhs. cbn [fst snd]. cbn [num RNum] in *. rewrite Ec. cbn [bind]. eexists. split; [reflexivity|]. split; [unfold map2; rewrite map_length; etransitivity; [exact (combine_length r c)|]; rewrite Lr; etransitivity; [exact (f_equal (Nat.min n) Lc)|apply Nat.min_id]|]. intros z. etransitivity; [exact (ip_add z r c ltac:(congruence))|]. rewrite Pc. reflexivity.
    - apply repeat_length.
    - unfold shared_rhs. etransitivity; [exact Eb'|]. f_equal. apply (vector_eq n); [exact Lb'|exact Lb|]. intros z. rewrite Pb', Pb, ip_zero, Rplus_0_l, Sum_plus.
      assert (ShL : forall pos, (pos < List.length cells)%nat -> List.length (filter (fun a : (nat -> bool) * thermal_data RNum => fst a pos) (combine owns ts)) = 1%nat).
      { intros pos Lp. rewrite <- (Sh pos Lp). clear - F2. induction F2 as [|o t0 owns ts _ _ IH]; [reflexivity|]. cbn [combine filter fst]. destruct (o pos); cbn [List.length]; rewrite IH; reflexivity. }
      apply f_equal2.
      + unfold thermal_work.
        exact (shared_sum cells (combine owns ts) (fun ot => fst ot)
          (fun ot pos c => Sum (ec_quads c) (fun q => (3 * lame1 (ec_plast c) + 2 * lame2 (ec_plast c)) * ec_alpha c * excess (reference references (td_melted (snd ot)) (seen_by (N := RNum) (fst ot) cells) pos c) (cell_temperature (snd ot) c) q * cell_divergence d C c q z * q_jxw q))
          (fun pos c => Sum (ec_quads c) (fun q => (3 * lame1 (ec_plast c) + 2 * lame2 (ec_plast c)) * ec_alpha c * excess (reference references (td_melted t) cells pos c) (cell_temperature t c) q * cell_divergence d C c q z * q_jxw q))
          One ShL ltac:(intros [own tp] pos c I En Oc T; cbn [fst snd] in *; pose proof (Forall2_in_combine _ _ _ F2 _ _ I) as HT; rewrite (process_reference references t own tp pos c TH HT En Oc T);
            replace (cell_temperature tp c) with (cell_temperature t c) by (unfold cell_temperature; apply map_ext_in; intros j Ij; symmetry; exact (proj2 HT pos c j En Oc Ij)); reflexivity)).
      + unfold force_work, solid.
        etransitivity; [apply Sum_ext; intros ot _; rewrite Sum_filter; symmetry; exact (Sum_indexed_snd (fun c => if takes_part c then Sum (ec_quads c) (fun q => Rsum_to d (fun a => Sum forces (fun f => nth a (f c) 0) * cell_value C c q z a) * q_jxw q) else 0) (seen_by (N := RNum) (fst ot) cells))|].
        rewrite Sum_filter. etransitivity; [|exact (Sum_indexed_snd (fun c => if takes_part c then Sum (ec_quads c) (fun q => Rsum_to d (fun a => Sum forces (fun f => nth a (f c) 0) * cell_value C c q z a) * q_jxw q) else 0) cells)].
        exact (shared_sum cells (combine owns ts) (fun ot => fst ot)
          (fun _ _ c => Sum (ec_quads c) (fun q => Rsum_to d (fun a => Sum forces (fun f => nth a (f c) 0) * cell_value C c q z a) * q_jxw q))
          (fun _ c => Sum (ec_quads c) (fun q => Rsum_to d (fun a => Sum forces (fun f => nth a (f c) 0) * cell_value C c q z a) * q_jxw q)) One ShL (fun a pos c _ _ _ _ => eq_refl)).
  Qed.
End Shared.
