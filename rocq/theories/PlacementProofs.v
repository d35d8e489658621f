(** PlacementProofs.v -- moving everything together changes no temperature. *)
From Coq Require Import Reals List Bool String ZArith Lra Lia.
From Verif Require Import Base BaseFacts QuaternionModel ScanPathModel HeatSourceModel MaterialModel InputModel HeatModel CellModel EnergyModel EnergySpec PlacementSpec.
Import ListNotations.
Local Open Scope R_scope.

Lemma pt_eq (a b c a' b' c' : R) : a = a' -> b = b' -> c = c' -> mkpt (N := RNum) a b c = mkpt (N := RNum) a' b' c'.
Proof. intros -> -> ->. reflexivity. Qed.

(** ** Scan paths *)
Lemma advance_moved M (l : list (seg RNum)) t : forall i, advance (map (moved_seg M) l) i t = advance l i t.
Proof. induction l as [|s l IH]; intros i; [reflexivity|]. cbn [map advance moved_seg end_time]. destruct (nltb RNum (end_time s) t); [apply IH|reflexivity]. Qed.
Lemma at_moved M (l : list (seg RNum)) i : at_ (map (moved_seg M) l) i = (do s <- at_ l i; Ok (moved_seg M s)).
Proof. unfold at_. rewrite nth_error_map. destruct (nth_error l i); reflexivity. Qed.
Lemma back_moved M (l : list (seg RNum)) : back (map (moved_seg M) l) = (do s <- back l; Ok (moved_seg M s)).
Proof. unfold back. rewrite <- map_rev. destruct (rev l); reflexivity. Qed.
Lemma info_moved M (sp : scan_path RNum) t save : update_current_segment_info (moved_path M sp) t save =
  (do r <- update_current_segment_info sp t save; let '(cur, p0, t0, r0, sp') := r in Ok (cur, move M p0, t0, r0, moved_path M sp')).
Proof.
  unfold update_current_segment_info. cbn [moved_path sp_segs sp_old]. rewrite skipn_map, advance_moved.
  destruct (advance (skipn (sp_old sp) (sp_segs sp)) (sp_old sp) t) as [cur| |]; cbn [bind]; try reflexivity.
  destruct cur; rewrite at_moved; destruct (at_ (sp_segs sp) _) as [s| |]; cbn [bind moved_seg end_point end_time end_rotation]; try reflexivity; destruct save; reflexivity.
Qed.
Lemma interpolated M (p0 p1 : pt RNum) (u d : R) :
  padd (N := RNum) (move M p0) (pscale (N := RNum) u (pdivs (N := RNum) (psub (N := RNum) (move M p1) (move M p0)) d)) =
  move M (padd (N := RNum) p0 (pscale (N := RNum) u (pdivs (N := RNum) (psub (N := RNum) p1 p0) d))).
Proof.
  destruct p0 as [x0 y0 z0], p1 as [x1 y1 z1], M as [a b c e [vx vy vz]]. cbn [num RNum] in *.
  unfold move, padd, pscale, pdivs, psub. cbn [px py pz nadd nsub nmul ndiv RNum m_a m_b m_c m_d m_shift]. apply pt_eq; unfold Rdiv; ring.
Qed.
Definition past (sp : scan_path RNum) (t : R) : bool := match back (sp_segs sp) with Ok last => Rltb (end_time last) t | _ => false end.
Lemma value_moved M (sp : scan_path RNum) t save : value (moved_path M sp) t save =
  (do r <- value sp t save; let '(p, sp') := r in Ok (if past sp t then p else move M p, moved_path M sp')).
Proof.
  unfold value, past. cbn [moved_path sp_segs]. rewrite back_moved. destruct (back (sp_segs sp)) as [last| |]; cbn [bind]; try reflexivity.
  cbn [moved_seg end_time]. cbn [nltb RNum]. destruct (Rltb (end_time last) t); [reflexivity|].
  change (mkSP _ _ _ _ _ _ _) with (moved_path M sp). rewrite info_moved. destruct (update_current_segment_info sp t save) as [[[[[cur p0] t0] r0] sp']| |]; cbn [bind]; try reflexivity.
  rewrite at_moved. destruct (at_ (sp_segs sp) cur) as [s| |]; cbn [bind moved_seg end_point end_time]; try reflexivity. f_equal. f_equal. apply interpolated.
Qed.
Lemma power_moved M (sp : scan_path RNum) t : get_power_modifier (moved_path M sp) t =
  (do r <- get_power_modifier sp t; let '(pm, sp') := r in Ok (pm, moved_path M sp')).
Proof.
  unfold get_power_modifier. cbn [moved_path sp_segs]. rewrite back_moved. destruct (back (sp_segs sp)) as [last| |]; cbn [bind]; try reflexivity.
  cbn [moved_seg end_time]. destruct (nltb RNum (end_time last) t); [reflexivity|].
  change (mkSP _ _ _ _ _ _ _) with (moved_path M sp). rewrite info_moved. destruct (update_current_segment_info sp t true) as [[[[[cur p0] t0] r0] sp']| |]; cbn [bind]; try reflexivity.
  rewrite at_moved. destruct (at_ (sp_segs sp) cur) as [s| |]; cbn [bind moved_seg power_modifier]; reflexivity.
Qed.
Lemma past_zero (sp : scan_path RNum) t pm sp1 : get_power_modifier sp t = Ok (pm, sp1) -> past sp1 t = true -> pm = 0.
Proof.
  unfold get_power_modifier, past. destruct (back (sp_segs sp)) as [last| |] eqn:B; cbn [bind]; try discriminate. cbn [nltb RNum].
  destruct (Rltb (end_time last) t) eqn:L; [intros [= <- <-] _; reflexivity|].
  unfold update_current_segment_info. destruct (advance _ _ t) as [cur| |]; cbn [bind]; try discriminate.
  destruct cur; (destruct (at_ (sp_segs sp) _) as [s| |]; cbn [bind]; try discriminate).
  all: destruct (at_ (sp_segs sp) _) as [s'| |]; cbn [bind]; try discriminate; intros [= _ <-]; cbn [set_old sp_segs]; rewrite B; rewrite L; discriminate.
Qed.
Lemma quaternion_moved M pow (sp : scan_path RNum) t : get_quaternion pow (moved_path M sp) t = get_quaternion pow sp t.
Proof.
  unfold get_quaternion. cbn [moved_path sp_five_axis sp_segs]. destruct (negb (sp_five_axis sp)); [reflexivity|]. rewrite back_moved. destruct (back (sp_segs sp)) as [last| |]; cbn [bind]; try reflexivity.
  cbn [moved_seg end_time end_rotation]. destruct (nltb RNum (end_time last) t); [reflexivity|].
  change (mkSP _ _ _ _ _ _ _) with (moved_path M sp). rewrite info_moved. destruct (update_current_segment_info sp t false) as [[[[[cur p0] t0] r0] sp']| |]; cbn [bind]; try reflexivity.
  rewrite at_moved. destruct (at_ (sp_segs sp) cur) as [s| |]; cbn [bind moved_seg end_time end_rotation]; reflexivity.
Qed.

(** ** Sources.  After the end of its path a beam is nowhere, without power. *)
Definition alpha (s : source) : R := match s with Goldak g => g_alpha g | ElectronBeam e => e_alpha e end.
Definition recentred (s : source) (c : pt RNum) : source :=
  match s with
  | Goldak g => Goldak (mkG (g_on g) (g_beam g) (g_path g) (g_five g) (g_quat g) c (g_alpha g) (g_depth g) (g_id2 g) (g_r2 g) (g_ir2 g))
  | ElectronBeam e => ElectronBeam (mkE (e_on e) (e_beam e) (e_path e) (e_five e) (e_quat e) c (e_alpha e) (e_depth e) (e_id e) (e_r2 e) (e_ir2 e))
  end.
Definition follows (M : motion) (s s' : source) : Prop := exists c, s' = recentred (moved_source M s) c /\ (alpha s <> 0 -> c = move M (source_center s)).
Lemma follows_moved M s : follows M s (moved_source M s).
Proof. exists (move M (source_center s)). split; [destruct s; reflexivity|reflexivity]. Qed.
Lemma update_follows M s s' t : follows M s s' ->
  match update_time s t with
  | Ok s1 => exists s1', update_time s' t = Ok s1' /\ follows M s1 s1'
  | Throw => update_time s' t = Throw
  | UB => update_time s' t = UB
  end.
Proof.
  intros (c & -> & _). destruct s as [g|e]; cbn [moved_source recentred update_time];
    [unfold goldak_update_time; cbn [g_path g_beam g_five]|unfold ebeam_update_time; cbn [e_path e_beam e_five]];
    rewrite power_moved; (destruct (get_power_modifier (N := RNum) _ t) as [[pm sp1]| |] eqn:P; cbn [bind]; try reflexivity);
    rewrite value_moved; (destruct (value sp1 t true) as [[p sp2]| |] eqn:V; cbn [bind]; try reflexivity);
    rewrite quaternion_moved; (destruct (get_quaternion qpow sp2 t) as [q| |]; cbn [bind]; try reflexivity);
    eexists; (split; [reflexivity|]); exists (if past sp1 t then p else move M p); (split; [reflexivity|]);
    cbn [alpha g_alpha e_alpha source_center g_center e_center]; intros A; destruct (past sp1 t) eqn:E; try reflexivity;
    exfalso; apply A; rewrite (past_zero _ _ _ _ P E); unfold Rdiv; ring.
Qed.
Lemma update_five s t s1 : update_time s t = Ok s1 -> source_five s1 = source_five s.
Proof.
  destruct s as [g|e]; cbn [update_time]; [unfold goldak_update_time|unfold ebeam_update_time];
    (destruct (get_power_modifier (N := RNum) _ t) as [[pm sp1]| |]; cbn [bind]; try discriminate); (destruct (value sp1 t true) as [[p sp2]| |]; cbn [bind]; try discriminate);
    (destruct (get_quaternion qpow sp2 t) as [q| |]; cbn [bind]; try discriminate); intros [= <-]; reflexivity.
Qed.
Lemma vertical_moved dim3 M p c : rigid dim3 M -> ax_z dim3 (move M p) - ax_z dim3 (move M c) = ax_z dim3 p - ax_z dim3 c.
Proof.
  intros (_ & _ & _ & P). destruct p as [x y z], c as [x' y' z'], M as [a b c e [vx vy vz]]. cbn [num RNum m_a m_b m_c m_d] in *. unfold ax_z, move. cbn [px py pz m_a m_b m_c m_d m_shift].
  destruct dim3; [ring|]. destruct (P eq_refl) as (-> & -> & ->). ring.
Qed.
Lemma distance_moved dim3 M p c : rigid dim3 M -> xpy_squared dim3 (move M c) (move M p) = xpy_squared dim3 c p.
Proof.
  intros (A & B & O & P). destruct p as [x y z], c as [x' y' z'], M as [a b c e [vx vy vz]]. cbn [num RNum m_a m_b m_c m_d] in *. unfold xpy_squared, move. cbn [px py pz m_a m_b m_c m_d m_shift].
  destruct dim3.
  - transitivity ((a * a + c * c) * (x - x') ^ 2 + (b * b + e * e) * (y - y') ^ 2 + 2 * (a * b + c * e) * (x - x') * (y - y')); [ring|]. rewrite A, B, O. ring.
  - destruct (P eq_refl) as (-> & -> & ->). replace (a * a + 0 * 0) with (a * a) in A by ring. transitivity (a * a * (x - x') ^ 2); [ring|]. rewrite A. ring.
Qed.
Lemma value_follows dim3 M s s' p : rigid dim3 M -> source_five s = false -> follows M s s' -> source_value dim3 s' (move M p) = source_value dim3 s p.
Proof.
  intros Rg F (c & -> & C). destruct s as [g|e]; cbn [moved_source recentred source_value source_five alpha source_center] in *;
    [unfold goldak_value; cbn [g_five g_quat g_center g_depth g_beam g_alpha g_ir2 g_id2]|unfold ebeam_value; cbn [e_five e_quat e_center e_depth e_beam e_alpha e_ir2 e_id e_r2]]; rewrite F.
  all: assert (N0 : forall q o, rotated dim3 false q o = Some o) by (intros; unfold rotated; destruct dim3; reflexivity); rewrite !N0.
  - destruct (Req_EM_T (g_alpha g) 0) as [Z|Z].
    + rewrite Z. repeat match goal with |- context [if ?b then _ else _] => destruct b end; rewrite ?Rmult_0_l; reflexivity.
    + rewrite (C Z), (vertical_moved dim3 M p (g_center g) Rg), (distance_moved dim3 M p (g_center g) Rg). reflexivity.
  - destruct (Req_EM_T (e_alpha e) 0) as [Z|Z].
    + rewrite Z. repeat match goal with |- context [if ?b then _ else _] => destruct b end; rewrite ?Rmult_0_l; reflexivity.
    + rewrite (C Z), (vertical_moved dim3 M p (e_center e) Rg), (distance_moved dim3 M p (e_center e) Rg). reflexivity.
Qed.
Lemma on_follows M s s' : follows M s s' -> is_source_on s' = is_source_on s.
Proof. intros (c & -> & _). destruct s; reflexivity. Qed.

(** Together with the absence of rotations, kept by every update. *)
Definition along (M : motion) (s s' : source) : Prop := follows M s s' /\ source_five s = false.
Definition mapres {A B} (P : A -> B -> Prop) (x : res A) (y : res B) : Prop :=
  match x, y with Ok a, Ok b => P a b | Throw, Throw => True | UB, UB => True | _, _ => False end.
Lemma set_time_along M t l l' : Forall2 (along M) l l' -> mapres (Forall2 (along M)) (set_time l t) (set_time l' t).
Proof.
  induction 1 as [|s s' l l' [H F] _ IH]; [constructor|]. unfold set_time in *. cbn [mapR]. pose proof (update_follows M s s' t H) as U.
  destruct (update_time s t) as [s1| |] eqn:E; [destruct U as (s1' & -> & U)| |]; cbn [bind]; [|rewrite U; exact I|rewrite U; exact I].
  destruct (mapR (fun s => update_time s t) l) as [r| |], (mapR (fun s => update_time s t) l') as [r'| |]; cbn [mapres bind] in *; try contradiction; try exact I.
  constructor; [split; [exact U|rewrite (update_five _ _ _ E); exact F]|exact IH].
Qed.
Lemma drive_along M ts : forall l l', Forall2 (along M) l l' -> mapres (Forall2 (Forall2 (along M))) (drive l ts) (drive l' ts).
Proof.
  induction ts as [|t ts IH]; intros l l' H; [constructor|]. cbn [drive]. pose proof (set_time_along M t l l' H) as U.
  destruct (set_time l t) as [r| |], (set_time l' t) as [r'| |]; cbn [mapres bind] in *; try contradiction; try exact I.
  specialize (IH r r' U). destruct (drive r ts) as [x| |], (drive r' ts) as [x'| |]; cbn [mapres bind] in *; try contradiction; try exact I. constructor; assumption.
Qed.

(** ** The operator *)
Lemma turn_zero M : turn M (mkpt (N := RNum) 0 0 0) = mkpt (N := RNum) 0 0 0.
Proof. unfold turn. cbn [px py pz]. apply pt_eq; ring. Qed.
Lemma dot_turn dim3 M (u v : pt RNum) : rigid dim3 M -> pdot (N := RNum) (turn M u) (turn M v) = pdot (N := RNum) u v.
Proof.
  intros (A & B & O & _). destruct u as [x y z], v as [x' y' z'], M as [a b c e w]. cbn [num RNum m_a m_b m_c m_d] in *. unfold pdot, turn. cbn [px py pz m_a m_b m_c m_d nadd nmul RNum].
  transitivity ((a * a + c * c) * (x * x') + (b * b + e * e) * (y * y') + (a * b + c * e) * (x * y' + y * x') + z * z'); [ring|]. rewrite A, B, O. ring.
Qed.
Lemma grad_nth M q i : nth i (h_grads (turned_quad M q)) (mkpt (N := RNum) 0 0 0) = turn M (nth i (h_grads q) (mkpt (N := RNum) 0 0 0)).
Proof. cbn [turned_quad h_grads]. rewrite <- (turn_zero M) at 1. apply map_nth. Qed.
Lemma gradient_turned M q (u : list R) : get_gradient (N := RNum) (turned_quad M q) u = turn M (get_gradient (N := RNum) q u).
Proof.
  unfold get_gradient. cbn [turned_quad h_grads].
  assert (G : forall gs (u : list R) (s : pt RNum),
    fold_left (fun s gu => padd (N := RNum) s (pscale (N := RNum) (snd gu) (fst gu))) (combine (map (turn M) gs) u) (turn M s) =
    turn M (fold_left (fun s gu => padd (N := RNum) s (pscale (N := RNum) (snd gu) (fst gu))) (combine gs u) s)).
  { induction gs as [|g gs IH]; intros v s; [reflexivity|]. destruct v as [|x v]; [reflexivity|]. cbn [map combine fold_left fst snd]. etransitivity; [|apply (IH v)]. f_equal.
    destruct s as [sx sy sz], g as [gx gy gz], M as [a b c e w]. cbn [num RNum] in *. unfold padd, pscale, turn. cbn [px py pz m_a m_b m_c m_d nadd nmul RNum]. apply pt_eq; ring. }
  etransitivity; [|exact (G (h_grads q) u (mkpt (N := RNum) 0 0 0))]. f_equal. symmetry. exact (turn_zero M).
Qed.
Lemma conduction_turned dim3 M (inv kx ky kz co si : R) (g : pt RNum) : rigid dim3 M ->
  conduction (N := RNum) dim3 inv kx ky kz (m_a M * co + m_b M * si) (m_c M * co + m_d M * si) (turn M g) = turn M (conduction (N := RNum) dim3 inv kx ky kz co si g).
Proof.
  intros (A & B & O & P). destruct g as [x y z], M as [a b c e w]. cbn [num RNum m_a m_b m_c m_d] in *. unfold conduction, turn, pscale. destruct dim3.
  - cbn [px py pz m_a m_b m_c m_d nadd nmul nsub nopp RNum].
    assert (D : exists s, s * s = 1 /\ e = s * a /\ c = - (s * b)).
    { exists (a * e - b * c). split; [|split].
      - transitivity ((a * a + c * c) * (b * b + e * e) - (a * b + c * e) * (a * b + c * e)); [ring|]. rewrite A, B, O. ring.
      - transitivity (e * (a * a + c * c) - c * (a * b + c * e)); [rewrite A, O; ring|]. ring.
      - transitivity (c * (b * b + e * e) - e * (a * b + c * e)); [rewrite B, O; ring|]. ring. }
    destruct D as (s & S2 & -> & ->).
    assert (AB : a * a + b * b = 1) by (transitivity (a * a + s * s * (b * b)); [rewrite S2; ring|rewrite <- A; ring]).
    clear A B O P. apply pt_eq.
    + transitivity (- (inv * (kx * (a * co + b * si) * (a * co + b * si) * (a * x + b * y) + (s * s) * ky * (a * si - b * co) * (a * si - b * co) * (a * x + b * y) + (s * s) * (kx - ky) * (a * co + b * si) * (a * si - b * co) * (a * y - b * x)))); [ring|].
      rewrite S2. transitivity (- (inv * ((a * a + b * b) * (kx * (a * co + b * si) * (co * x + si * y) + ky * (a * si - b * co) * (si * x - co * y))))); [ring|]. rewrite AB. ring.
    + transitivity (- (inv * (s * ((kx - ky) * (a * co + b * si) * (a * si - b * co) * (a * x + b * y) + ((s * s) * kx * (a * si - b * co) * (a * si - b * co) + ky * (a * co + b * si) * (a * co + b * si)) * (a * y - b * x))))); [ring|].
      rewrite S2. transitivity (- (inv * (s * ((a * a + b * b) * (kx * (a * si - b * co) * (co * x + si * y) - ky * (a * co + b * si) * (si * x - co * y)))))); [ring|]. rewrite AB. ring.
    + ring.
  - destruct (P eq_refl) as (-> & -> & ->). cbn [px py pz m_a m_b m_c m_d nadd nmul nsub nopp nofZ RNum]. apply pt_eq; ring.
Qed.

Lemma read_turned C (u : list R) M c : read_cell (N := RNum) C u (turned_cell M c) = read_cell (N := RNum) C u c. Proof. reflexivity. Qed.
Lemma value_turned M q (u : list R) : get_value (N := RNum) (turned_quad M q) u = get_value (N := RNum) q u. Proof. reflexivity. Qed.
Lemma fold_mapped {A B X} (f : X -> B -> X) (g : X -> A -> X) (h : A -> B) (l : list A) : (forall x a, f x (h a) = g x a) -> forall x, fold_left f (map h l) x = fold_left g l x.
Proof. intros E. induction l as [|a l IH]; intros x; [reflexivity|]. cbn [map fold_left]. rewrite E. apply IH. Qed.
(** What was submitted on the turned mesh: turned vectors. *)
Definition turned_sub (M : motion) (s : hquad RNum * (num RNum * pt RNum)) : hquad RNum * (num RNum * pt RNum) := (turned_quad M (fst s), (fst (snd s), turn M (snd (snd s)))).
Lemma integrate_turned dim3 M qs i : rigid dim3 M -> integrate (N := RNum) (map (turned_sub M) qs) i = integrate (N := RNum) qs i.
Proof.
  intros Rg. unfold integrate. apply fold_mapped. intros z q. f_equal. f_equal.
  cbn [turned_sub fst snd]. f_equal. etransitivity; [|exact (dot_turn dim3 M (snd (snd q)) (nth i (h_grads (fst q)) (mkpt (N := RNum) 0 0 0)) Rg)].
  exact (f_equal (pdot (N := RNum) (turn M (snd (snd q)))) (grad_nth M (fst q) i)).
Qed.
Lemma distribute_turned dim3 M C c qs (d : list R) : rigid dim3 M -> distribute (N := RNum) C (turned_cell M c) (map (turned_sub M) qs) d = distribute (N := RNum) C c qs d.
Proof.
  intros Rg. unfold distribute. cbn [turned_cell c_dofs]. f_equal. f_equal. apply map_ext. intros i. exact (integrate_turned dim3 M qs i Rg).
Qed.
Lemma quads_turned {A} M c (f g : nat * hquad RNum -> A) : (forall i q, f (i, turned_quad M q) = g (i, q)) ->
  map f (combine (seq 0 (List.length (c_quads (turned_cell M c)))) (c_quads (turned_cell M c))) = map g (combine (seq 0 (List.length (c_quads c))) (c_quads c)).
Proof.
  intros E. cbn [turned_cell c_quads]. rewrite map_length. generalize 0%nat. generalize (c_quads c). intros l.
  induction l as [|q l IH]; intros k; [reflexivity|]. cbn [List.length seq map combine]. rewrite IH, E. reflexivity.
Qed.
Lemma local_apply_turned dim3 on C M (K K' : laws RNum) (y d : list R) i c : rigid dim3 M -> (forall q T, K' i q T = turned_law M (K i q T)) ->
  local_apply (N := RNum) dim3 on C K' y d (i, turned_cell M c) = local_apply (N := RNum) dim3 on C K y d (i, c).
Proof.
  intros Rg E. unfold local_apply. cbn [fst snd]. etransitivity; [|exact (distribute_turned dim3 M C c _ d Rg)]. f_equal. rewrite map_map. apply quads_turned.
  intros k q. unfold submitted, turned_sub. cbn [fst snd]. rewrite read_turned, value_turned, E. cbn [turned_law pl_inv pl_kx pl_ky pl_kz pl_cos pl_sin pl_beams].
  f_equal. f_equal. rewrite gradient_turned. exact (conduction_turned dim3 M _ _ _ _ _ _ _ Rg).
Qed.
Lemma face_apply_turned dim3 C M (F : face_laws RNum) (y d : list R) i f : rigid dim3 M ->
  face_apply (N := RNum) C F y d (i, turned_face M f) = face_apply (N := RNum) C F y d (i, f).
Proof.
  intros Rg. unfold face_apply. cbn [fst snd]. change (face_done (turned_face M f)) with (face_done f). destruct (face_done f); [reflexivity|].
  assert (H : hf_cell (turned_face M f) = turned_cell M (hf_cell f)) by (unfold hf_cell; cbn [turned_face hf_first hf_inner hf_outer]; destruct (Nat.eqb (hf_first f) 0); reflexivity).
  rewrite H. etransitivity; [|exact (distribute_turned dim3 M C (hf_cell f) _ d Rg)]. f_equal. rewrite map_map. apply quads_turned.
  intros k q. unfold face_value, turned_sub. cbn [fst snd]. rewrite read_turned, value_turned. cbn [turned_face hf_type]. f_equal. f_equal. symmetry. exact (turn_zero M).
Qed.
Lemma fold_numbered {A B X} (f : X -> nat * B -> X) (g : X -> nat * A -> X) (h : A -> B) (l : list A) :
  (forall x i a, In a l -> f x (i, h a) = g x (i, a)) -> forall x, fold_left f (numbered (map h l)) x = fold_left g (numbered l) x.
Proof.
  intros E. unfold numbered. rewrite map_length. generalize 0%nat. induction l as [|a l IH]; intros k x; [reflexivity|]. cbn [List.length seq map combine fold_left].
  rewrite IH; [|intros; apply E; right; assumption]. f_equal. apply E. left; reflexivity.
Qed.
Lemma local_mass_turned dim3 C M (src d : list R) c : rigid dim3 M -> local_mass (N := RNum) C src d (turned_cell M c) = local_mass (N := RNum) C src d c.
Proof.
  intros Rg. unfold local_mass. etransitivity; [|exact (distribute_turned dim3 M C c _ d Rg)]. f_equal. rewrite map_map. cbn [turned_cell c_quads]. rewrite map_map. apply map_ext.
  intros q. unfold turned_sub. cbn [fst snd]. rewrite value_turned. f_equal. f_equal. symmetry. exact (turn_zero M).
Qed.
Lemma inverse_mass_turned dim3 n C M cells : rigid dim3 M -> inverse_mass (N := RNum) n C (map (turned_cell M) cells) = inverse_mass (N := RNum) n C cells.
Proof.
  intros Rg. unfold inverse_mass, mass. f_equal. f_equal. apply fold_mapped. intros d c. exact (local_mass_turned dim3 C M _ d c Rg).
Qed.
Lemma evaluate_turned dim3 on ad m M (K K' : laws RNum) F (y : list R) : rigid dim3 M -> (forall c q T, K' c q T = turned_law M (K c q T)) ->
  evaluate (N := RNum) dim3 on ad (turned_mesh M m) K' F y = evaluate (N := RNum) dim3 on ad m K F y.
Proof.
  intros Rg E. unfold evaluate. cbn [turned_mesh m_C m_cells m_faces m_n m_mass]. f_equal; [|exact (inverse_mass_turned dim3 _ _ M _ Rg)].
  unfold vmult_add. cbv zeta. f_equal.
  assert (D : forall d, fold_left (local_apply (N := RNum) dim3 on (m_C m) K' y) (numbered (map (turned_cell M) (m_cells m))) d = fold_left (local_apply (N := RNum) dim3 on (m_C m) K y) (numbered (m_cells m)) d).
  { intros d. apply fold_numbered. intros x i c _. apply local_apply_turned; [exact Rg|intros; apply E]. }
  destruct ad; [exact (D _)|]. etransitivity; [apply (f_equal (fun d => fold_left (face_apply (N := RNum) (m_C m) F y) (numbered (map (turned_face M) (m_faces m))) d) (D _))|].
  apply fold_numbered. intros x i f _. exact (face_apply_turned dim3 (m_C m) M F y x i f Rg).
Qed.

(** ** Runs *)
Lemma stages_same (f g : nat -> R -> list R -> list R) t dt y a c : (forall i s v, f i s v = g i s v) ->
  forall i ks, stages (N := RNum) f t dt y a c i ks = stages (N := RNum) g t dt y a c i ks.
Proof. intros E. induction c as [|ci c IH]; intros i ks; [reflexivity|]. cbn [stages]. rewrite IH. f_equal. f_equal. f_equal. apply E. Qed.
Lemma evolve_same s (f g : nat -> R -> list R -> list R) t dt y : (forall i u v, f i u v = g i u v) -> evolve (N := RNum) s f t dt y = evolve (N := RNum) s g t dt y.
Proof. intros E. unfold evolve. destruct s; [f_equal; f_equal; apply E| |]; cbv zeta; rewrite (stages_same f g _ _ _ _ _ E); reflexivity. Qed.
Lemma nth_along M i : forall l l', Forall2 (Forall2 (along M)) l l' -> Forall2 (along M) (nth i l []) (nth i l' []).
Proof. induction i as [|i IH]; intros l l' H; destruct H; try constructor; cbn [nth]; auto. Qed.
Lemma last_along M l l' d d' : Forall2 (Forall2 (along M)) l l' -> Forall2 (along M) d d' -> Forall2 (along M) (last l d) (last l' d').
Proof. intros H D. induction H as [|a b l l' Hab Hl IH]; [exact D|]. destruct Hl; [exact Hab|exact IH]. Qed.
Lemma beams_along dim3 M l l' p : rigid dim3 M -> Forall2 (along M) l l' ->
  map (fun s => match source_value dim3 s (move M p) with Some v => v | None => 0 end) l' = map (fun s => match source_value dim3 s p with Some v => v | None => 0 end) l.
Proof. intros Rg H. induction H as [|s s' l l' [F S] _ IH]; [reflexivity|]. cbn [map]. rewrite IH, (value_follows dim3 M s s' p Rg S F). reflexivity. Qed.
Lemma on_along M l l' : Forall2 (along M) l l' -> map is_source_on l' = map is_source_on l.
Proof. induction 1 as [|s s' l l' [F S] _ IH]; [reflexivity|]. cbn [map]. rewrite IH, (on_follows M s s' F). reflexivity. Qed.
Lemma step_turned dim3 s m M x (K K' : nat -> laws RNum) F sts sts' t dt (y : list R) : rigid dim3 M -> (forall i c q T, K' i c q T = turned_law M (K i c q T)) ->
  Forall2 (Forall2 (along M)) sts sts' -> beam_step dim3 s (turned_mesh M m) (fun c q => move M (x c q)) K' F sts' t dt y = beam_step dim3 s m x K F sts t dt y.
Proof.
  intros Rg E H. unfold beam_step. apply evolve_same. intros i u v. cbv zeta. pose proof (nth_along M i sts sts' H) as A. rewrite (on_along _ _ _ A).
  apply evaluate_turned; [exact Rg|]. intros c q T. unfold with_beams. cbv zeta. rewrite E, (beams_along dim3 M _ _ (x c q) Rg A). reflexivity.
Qed.
Lemma run_turned dim3 s m M x (K : nat -> nat -> laws RNum) F : rigid dim3 M -> forall dts n t srcs srcs' (y : list R), Forall2 (along M) srcs srcs' ->
  thermal_run dim3 s (turned_mesh M m) (fun c q => move M (x c q)) (fun n i c q T => turned_law M (K n i c q T)) F n t dts srcs' y = thermal_run dim3 s m x K F n t dts srcs y.
Proof.
  intros Rg. induction dts as [|dt dts IH]; intros n t srcs srcs' y H; [reflexivity|]. cbn [thermal_run]. pose proof (drive_along M (stage_times s t dt) srcs srcs' H) as D.
  destruct (drive srcs (stage_times s t dt)) as [sts| |], (drive srcs' (stage_times s t dt)) as [sts'| |]; cbn [mapres bind] in *; try contradiction; try reflexivity.
  rewrite (step_turned dim3 s m M x (K n) (fun i c q T => turned_law M (K n i c q T)) (F n) sts sts' t dt y Rg (fun _ _ _ _ => eq_refl) D).
  destruct (beam_step dim3 s m x (K n) (F n) sts t dt y) as [t1 y1]. apply IH. apply last_along; assumption.
Qed.
Lemma run_moved dim3 s m M x (K : nat -> nat -> laws RNum) F n t dts srcs (y : list R) : rigid dim3 M -> Forall (fun s => source_five s = false) srcs ->
  thermal_run dim3 s (turned_mesh M m) (fun c q => move M (x c q)) (fun n i c q T => turned_law M (K n i c q T)) F n t dts (map (moved_source M) srcs) y = thermal_run dim3 s m x K F n t dts srcs y.
Proof.
  intros Rg F5. apply (run_turned dim3 s m M x K F Rg). induction F5 as [|s0 l H _ IH]; [constructor|]. constructor; [split; [apply follows_moved|exact H]|exact IH].
Qed.
(** The beam and its path. *)
Lemma beam_moved dim3 M s t s1 p : rigid dim3 M -> source_five s = false -> update_time s t = Ok s1 ->
  exists s1', update_time (moved_source M s) t = Ok s1' /\ is_source_on s1' = is_source_on s1 /\ source_value dim3 s1' (move M p) = source_value dim3 s1 p.
Proof.
  intros Rg F U. pose proof (update_follows M s (moved_source M s) t (follows_moved M s)) as H. rewrite U in H. destruct H as (s1' & U' & H). exists s1'. split; [exact U'|].
  split; [exact (on_follows M s1 s1' H)|]. apply value_follows; [exact Rg|rewrite (update_five _ _ _ U); exact F|exact H].
Qed.
Lemma position_moved M (sp : scan_path RNum) t save p sp' : (forall last, back (sp_segs sp) = Ok last -> t <= end_time last) ->
  value (N := RNum) sp t save = Ok (p, sp') -> exists sp'', value (N := RNum) (moved_path M sp) t save = Ok (move M p, sp'') /\ sp'' = moved_path M sp'.
Proof.
  intros L V. rewrite value_moved, V. cbn [bind]. exists (moved_path M sp'). split; [|reflexivity].
  assert (P : past sp t = false).
  { unfold past. destruct (back (sp_segs sp)) as [last| |]; try reflexivity. specialize (L last eq_refl). unfold Rltb. destruct (Rlt_dec _ _); [cbn [num RNum] in *; lra|reflexivity]. }
  rewrite P. reflexivity.
Qed.
Lemma any_step_turned dim3 ad s m M on (K : nat -> laws RNum) F t dt (y : list R) : rigid dim3 M ->
  evolve (N := RNum) s (fun i _ v => evaluate (N := RNum) dim3 (on i) ad (turned_mesh M m) (fun c q T => turned_law M (K i c q T)) (F i) v) t dt y =
  evolve (N := RNum) s (fun i _ v => evaluate (N := RNum) dim3 (on i) ad m (K i) (F i) v) t dt y.
Proof. intros Rg. apply evolve_same. intros i _ v. apply evaluate_turned; [exact Rg|reflexivity]. Qed.
