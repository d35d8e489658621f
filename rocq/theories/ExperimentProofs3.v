(** ExperimentProofs3.v -- binary64 frames (C32), point clouds (C54), mapping (C55). *)
From Coq Require Import Reals ZArith Bool List String Ascii Lia Lra Floats.
From Flocq Require Import IEEE754.BinarySingleNaN IEEE754.PrimFloat Core.
From Verif Require Import Base BaseFacts ScanPathModel MaterialModel MaterialProofs MaterialFloat InputModel InputSpec InputProofs EnsembleModel EnsembleProofs MicrostructureProofs ExperimentModel ExperimentSpec ExperimentProofs ExperimentProofs2.
Import ListNotations.

(** ** Events only depend on the order of the numbers. *)
Section Transfer.
  Context {N M : Num} (h : N -> M) (ok : N -> Prop).
  Hypothesis Hle : forall x y, ok x -> ok y -> nleb M (h x) (h y) = nleb N x y.
  Hypothesis Hlt : forall x y, ok x -> ok y -> nltb M (h x) (h y) = nltb N x y.
  Definition same_events (a : res (list (fstate N * fevent))) (b : res (list (fstate M * fevent))) : Prop :=
    match a, b with Ok x, Ok y => map snd x = map snd y | Throw, Throw => True | UB, UB => True | _, _ => False end.
  Lemma run_transfer ts half half' : Forall ok ts -> forall times n old st st', Forall ok (old :: times) -> f_next st = f_next st' -> f_reader st = f_reader st' ->
    same_events (frame_run ts half n old times st) (frame_run (map h ts) half' n (h old) (map h times) st').
  Proof.
    intros Ht. assert (At : forall i x, nth_error ts i = Some x -> ok x).
    { intros i x X. rewrite Forall_forall in Ht. apply Ht. eapply nth_error_In, X. }
    induction times as [|t rest IH]; intros n old st st' Fo En Er; [reflexivity|].
    inversion Fo as [|? ? Ho Fo']; subst. inversion Fo' as [|? ? Htt Fo'']; subst.
    cbn [frame_run map]. unfold frame_step. rewrite map_length, <- En, <- Er.
    destruct (Nat.ltb (f_next st) (List.length ts)).
    - unfold at_. rewrite nth_error_map. destruct (nth_error ts (f_next st)) as [x|] eqn:X; [|exact I]. cbn [option_map bind].
      rewrite Hle by (eauto). destruct (nleb N x t).
      + rewrite nth_error_map. destruct (nth_error ts (f_reader st)) as [y|] eqn:Y; [|exact I]. cbn [option_map bind].
        rewrite Hle by eauto. destruct (nleb N y t).
        * rewrite Hlt by eauto. destruct (nltb N old y || Nat.eqb n 1); [|exact I]. cbn [bind].
          match goal with |- context [frame_run ts half (S n) t rest ?s] => match goal with |- context [frame_run (map h ts) half' (S n) (h t) (map h rest) ?s'] => specialize (IH (S n) t s s' Fo' eq_refl eq_refl) end end.
          unfold same_events in IH. destruct (frame_run ts half (S n) t rest _), (frame_run (map h ts) half' (S n) (h t) (map h rest) _); try contradiction; try exact I. simpl. f_equal. exact IH.
        * cbn [bind].
          match goal with |- context [frame_run ts half (S n) t rest ?s] => match goal with |- context [frame_run (map h ts) half' (S n) (h t) (map h rest) ?s'] => specialize (IH (S n) t s s' Fo' eq_refl eq_refl) end end.
          unfold same_events in IH. destruct (frame_run ts half (S n) t rest _), (frame_run (map h ts) half' (S n) (h t) (map h rest) _); try contradiction; try exact I. simpl. f_equal. exact IH.
      + cbn [bind].
        match goal with |- context [frame_run ts half (S n) t rest ?s] => match goal with |- context [frame_run (map h ts) half' (S n) (h t) (map h rest) ?s'] => specialize (IH (S n) t s s' Fo' eq_refl eq_refl) end end.
        unfold same_events in IH. destruct (frame_run ts half (S n) t rest _), (frame_run (map h ts) half' (S n) (h t) (map h rest) _); try contradiction; try exact I. simpl. f_equal. exact IH.
    - cbn [bind]. specialize (IH (S n) t st st' Fo' En Er).
      unfold same_events in IH. destruct (frame_run ts half (S n) t rest _), (frame_run (map h ts) half' (S n) (h t) (map h rest) _); try contradiction; try exact I. simpl. f_equal. exact IH.
  Qed.
End Transfer.
Lemma Fleb (x y : FNum) : Ffinite x -> Ffinite y -> Rleb (Fval x) (Fval y) = nleb FNum x y.
Proof. intros Fx Fy. symmetry. apply Embeds_F; assumption. Qed.
Lemma Fltb' (x y : FNum) : Ffinite x -> Ffinite y -> Rltb (Fval x) (Fval y) = nltb FNum x y.
Proof. intros Fx Fy. symmetry. apply Embeds_F; assumption. Qed.
Theorem binary64_each_once (ts : list FNum) (half t0 : FNum) times : Forall Ffinite ts -> Forall Ffinite (t0 :: times) ->
  increasing (map Fval ts) -> increasing (map Fval (t0 :: times)) -> apart (map Fval ts) (map Fval times) ->
  exists evs, frame_run ts half 1 t0 times (frames_initial 0) = Ok evs /\ List.length evs = List.length times /\
    (forall k j, nth_error (map snd evs) k = Some (Assimilated j) <-> due (map Fval ts) (map Fval times) k j) /\ (forall k j, nth_error (map snd evs) k <> Some (Read j)).
Proof.
  intros F1 F2 I1 I2 Ap. destruct (each_once (map Fval ts) 1 (Fval t0) (map Fval times) I1 I2 Ap) as (evs & E & L & H & H' & _).
  assert (X := run_transfer (N := FNum) (M := RNum) Fval Ffinite Fleb Fltb' ts half 1%R F1 times 1 t0 (frames_initial 0) (frames_initial (N := RNum) 0) F2 eq_refl eq_refl).
  cbn [num RNum] in X. unfold same_events in X.
  destruct (frame_run ts half 1 t0 times (frames_initial 0)) as [e| |] eqn:Ee.
  - assert (X' : map snd e = map snd evs). { revert X. rewrite E. exact (fun x => x). }
    exists e. split; [reflexivity|]. split; [|rewrite X'; split; assumption].
    rewrite <- (map_length snd), X', map_length. rewrite L. apply map_length.
  - exfalso. revert X. rewrite E. exact (fun x => x).
  - exfalso. revert X. rewrite E. exact (fun x => x).
Qed.

(** ** Point clouds *)
Local Open Scope string_scope.
Section Cloud.
  Context {N : Num} (strtod : string -> N) (zero : N).
  Lemma set_coord_length (l : list N) : forall i x, List.length (set_coord l i x) = List.length l.
  Proof. induction l as [|a l IH]; intros [|i] x; simpl; try reflexivity. f_equal. apply IH. Qed.
  Lemma set_coord_nth (l : list N) : forall i x k, (i < List.length l)%nat -> nth_error (set_coord l i x) k = if Nat.eqb k i then Some x else nth_error l k.
  Proof.
    induction l as [|a l IH]; intros [|i] x k H; simpl in H; try lia.
    - destruct k; reflexivity.
    - destruct k as [|k]; [reflexivity|]. simpl. apply IH. lia.
  Qed.
  Lemma skip_empty dim fields : forall i p, row_fields strtod dim i fields p = row_fields strtod dim i (filter nonempty fields) p.
  Proof.
    induction fields as [|f rest IH]; intros i p; [reflexivity|]. cbn [row_fields filter]. unfold nonempty at 1.
    destruct f as [|c f]; [cbn [String.length Nat.eqb String.eqb negb]; apply IH|].
    cbn [String.length Nat.eqb String.eqb negb row_fields]. apply IH.
  Qed.
  Lemma row_go dim : forall fields i p, (forall f, In f fields -> nonempty f = true) -> List.length (s_coords p) = dim ->
    let r := row_fields strtod dim i fields p in
    List.length (s_coords r) = dim /\
    (forall k, (k < dim)%nat -> nth_error (s_coords r) k = if Nat.leb i k then match nth_error fields (k - i) with Some f => Some (strtod f) | None => nth_error (s_coords p) k end else nth_error (s_coords p) k) /\
    s_value r = (if Nat.ltb dim (i + List.length fields) then match last_error fields with Some f => strtod f | None => s_value p end else s_value p).
  Proof.
    induction fields as [|f rest IH]; intros i p NE L; cbv zeta.
    - cbn [row_fields]. split; [exact L|]. split; [|destruct (Nat.ltb _ _); reflexivity].
      intros k Hk. destruct (Nat.leb i k); [|reflexivity]. destruct (k - i)%nat; reflexivity.
    - cbn [row_fields]. assert (Nf := NE f (or_introl eq_refl)). assert (Lf : Nat.eqb (String.length f) 0 = false) by (destruct f; [discriminate|reflexivity]).
      rewrite Lf. set (p' := if Nat.ltb i dim then mksample (set_coord (s_coords p) i (strtod f)) (s_value p) else mksample (s_coords p) (strtod f)).
      assert (L' : List.length (s_coords p') = dim) by (unfold p'; destruct (Nat.ltb i dim); simpl; [rewrite set_coord_length|]; exact L).
      destruct (IH (S i) p' (fun g I => NE g (or_intror I)) L') as (A & B & C). cbv zeta in *. split; [exact A|]. split.
      + intros k Hk. rewrite B by exact Hk. destruct (Nat.leb_spec (S i) k) as [Q|Q].
        * destruct (Nat.leb_spec i k); [|lia]. replace (k - i)%nat with (S (k - S i)) by lia. cbn [nth_error].
          destruct (nth_error rest (k - S i)); [reflexivity|]. unfold p'. destruct (Nat.ltb_spec i dim); [|reflexivity]. simpl.
          rewrite set_coord_nth by lia. destruct (Nat.eqb_spec k i); [lia|reflexivity].
        * destruct (Nat.leb_spec i k) as [Q'|Q'].
          -- assert (k = i) by lia. subst k. rewrite Nat.sub_diag. cbn [nth_error]. unfold p'. destruct (Nat.ltb_spec i dim); [|lia]. simpl.
             rewrite set_coord_nth by lia. rewrite Nat.eqb_refl. reflexivity.
          -- unfold p'. destruct (Nat.ltb_spec i dim); [|reflexivity]. simpl. rewrite set_coord_nth by lia. destruct (Nat.eqb_spec k i); [lia|reflexivity].
      + rewrite C. cbn [List.length]. replace (S i + List.length rest)%nat with (i + S (List.length rest))%nat by lia.
        unfold last_error. cbn [List.length]. rewrite Nat.sub_succ, Nat.sub_0_r.
        destruct rest as [|g rest].
        * cbn [List.length nth_error Nat.sub]. unfold p'. destruct (Nat.ltb_spec dim (i + 1)), (Nat.ltb_spec i dim); try lia; reflexivity.
        * cbn [List.length] in *. rewrite Nat.sub_succ, Nat.sub_0_r. change (nth_error (f :: g :: rest) (S (List.length rest))) with (nth_error (g :: rest) (List.length rest)).
          destruct (nth_error (g :: rest) (List.length rest)) as [z|] eqn:Z.
          -- destruct (Nat.ltb_spec dim (i + S (S (List.length rest)))); [reflexivity|]. unfold p'. destruct (Nat.ltb_spec i dim); [reflexivity|lia].
          -- apply nth_error_None in Z. simpl in Z. lia.
  Qed.
  Theorem row_ok dim line fields : words_of line fields -> row_means strtod zero dim (filter nonempty fields) (cloud_row strtod zero dim line).
  Proof.
    intros W. apply words_unique in W. subst fields. unfold cloud_row. fold (words line). rewrite skip_empty.
    set (fs := filter nonempty (words line)).
    destruct (row_go dim fs 0 (mksample (repeat zero dim) zero)) as (A & B & C).
    { intros f I. apply filter_In in I. apply I. }
    { simpl. apply repeat_length. }
    cbv zeta in *. split; [exact A|]. split.
    - intros i Hi. rewrite B by exact Hi. cbn [Nat.leb]. rewrite Nat.sub_0_r. destruct (nth_error fs i); [reflexivity|]. simpl. apply nth_error_repeat, Hi.
    - rewrite C. reflexivity.
  Qed.
  Lemma tl_lines (lines : list string) k : nth_error (tl lines) k = nth_error lines (S k).
  Proof. destruct lines; simpl; [destruct k; reflexivity|reflexivity]. Qed.
  (** One sample per line after the first of every file, cameras in order. *)
  Theorem frame_ok fs dim template first last frame :
    read_frame strtod zero fs dim template first last frame =
    List.concat (map (fun camera => match fs (frame_file template camera frame) with [] => [] | _ :: rows => map (cloud_row strtod zero dim) rows end) (seq first (S last - first))).
  Proof.
    unfold read_frame. replace (last + 1 - first)%nat with (S last - first)%nat by lia. f_equal. apply map_ext. intros c. unfold cloud_file. destruct (fs _); reflexivity.
  Qed.
End Cloud.

Lemma substring_all s : forall m, (String.length s <= m)%nat -> String.substring 0 m s = s.
Proof. induction s as [|c s IH]; intros [|m] H; simpl in *; try reflexivity; try lia. f_equal. apply IH. lia. Qed.
Lemma substring_skip p s : forall m, (String.length s <= m)%nat -> String.substring (String.length p) m (p ++ s) = s.
Proof. induction p as [|c p IH]; intros m H; simpl; [apply substring_all, H|apply IH, H]. Qed.
Lemma prefix_app p s : String.prefix p (p ++ s) = true.
Proof. induction p as [|c p IH]; simpl; [destruct s; reflexivity|]. destruct (Ascii.ascii_dec c c); [exact IH|contradiction]. Qed.
Lemma prefix_hash p s : no_hash s -> String.prefix (String "#" p) s = false.
Proof. intros H. destruct s as [|c s]; [reflexivity|]. cbn [String.prefix]. destruct (Ascii.ascii_dec "#" c) as [<-|NE]; [exfalso; apply H; left; reflexivity|reflexivity]. Qed.
Lemma no_hash_app a b : no_hash (a ++ b) <-> no_hash a /\ no_hash b.
Proof. unfold no_hash. rewrite chars_app, in_app_iff. tauto. Qed.
Lemma slength_app (a b : string) : String.length (a ++ b) = (String.length a + String.length b)%nat.
Proof. induction a as [|c a IH]; simpl; [reflexivity|]. rewrite IH. reflexivity. Qed.
(** Replacement skips text without a hash sign. *)
Lemma replace_skip p by_ a : no_hash a -> forall fuel s, (String.length (a ++ s) <= fuel)%nat ->
  replace_go fuel (String "#" p) by_ (a ++ s) = a ++ replace_go (fuel - String.length a) (String "#" p) by_ s.
Proof.
  induction a as [|c a IH]; intros H fuel s L.
  - simpl. rewrite Nat.sub_0_r. reflexivity.
  - destruct fuel as [|fuel]; [simpl in L; lia|]. cbn [append]. cbn [replace_go]. cbn [String.length Nat.eqb].
    assert (P : String.prefix (String "#" p) (String c (a ++ s)) = false).
    { cbn [String.prefix]. destruct (Ascii.ascii_dec "#" c) as [<-|NE]; [exfalso; apply H; left; reflexivity|reflexivity]. }
    rewrite P. cbn [Nat.sub]. f_equal. apply IH; [intros I; apply H; right; exact I|simpl in L; lia].
Qed.
Lemma replace_hit p by_ s fuel : (String.length (String "#" p ++ s) <= fuel)%nat ->
  replace_go fuel (String "#" p) by_ (String "#" p ++ s) = by_ ++ replace_go (fuel - 1) (String "#" p) by_ s.
Proof.
  intros L. destruct fuel as [|fuel]; [simpl in L; lia|]. cbn [replace_go].
  rewrite prefix_app. assert (E : Nat.eqb (String.length (String "#" p ++ s)) 0 = false) by reflexivity. rewrite E.
  rewrite substring_skip by (rewrite slength_app; lia). rewrite Nat.sub_succ, Nat.sub_0_r. reflexivity.
Qed.
Lemma replace_none p by_ s fuel : no_hash s -> (String.length s <= fuel)%nat -> replace_go fuel (String "#" p) by_ s = s.
Proof.
  intros H L. rewrite <- (app_empty_r s) at 1. rewrite replace_skip; [|exact H|rewrite app_empty_r; exact L].
  assert (E : forall f, replace_go f (String "#" p) by_ "" = "") by (intros [|f]; reflexivity). rewrite E. apply app_empty_r.
Qed.
Lemma to_string_no_hash n : no_hash (to_string n).
Proof.
  assert (H : forall d, no_hash (DecimalString.NilEmpty.string_of_uint d)).
  { induction d; intros I; simpl in I; [exact I|..]; destruct I as [I|I]; try discriminate I; apply (IHd I). }
  unfold to_string. destruct (Nat.to_uint n) eqn:E; try apply (H _). intros [I|I]; [discriminate I|destruct I].
Qed.
Lemma piece_ok pat by_ tail ps : pat = "camera" /\ tail = "frame" \/ pat = "frame" /\ tail = "camera" ->
  Forall (fun p => match p with Text s => no_hash s | _ => True end) ps ->
  forall fuel, (String.length (render_with (String "#" pat) (String "#" tail) ps) <= fuel)%nat ->
  replace_go fuel (String "#" pat) by_ (render_with (String "#" pat) (String "#" tail) ps) = render_with by_ (String "#" tail) ps.
Proof.
  intros Hp F. induction F as [|p ps Hh F IH]; intros fuel L.
  - destruct fuel; reflexivity.
  - destruct p as [s| |]; cbn [render_with] in *.
    + rewrite replace_skip; [|exact Hh|exact L]. f_equal. apply IH. rewrite slength_app in L. lia.
    + rewrite replace_hit by exact L. f_equal. apply IH. rewrite slength_app in L. cbn [String.length] in L. lia.
    + destruct fuel as [|fuel]; [rewrite slength_app in L; cbn [String.length] in L; lia|].
      cbn [append replace_go String.length Nat.eqb].
      assert (P : String.prefix (String "#" pat) (String "#" (tail ++ render_with (String "#" pat) (String "#" tail) ps)) = false).
      { destruct Hp as [[-> ->]|[-> ->]]; reflexivity. }
      rewrite P. f_equal. cbn [append String.length] in L.
      assert (Nt : no_hash tail) by (destruct Hp as [[_ ->]|[_ ->]]; intros I; repeat (destruct I as [I|I]; [discriminate I|]); destruct I).
      rewrite replace_skip; [|exact Nt|lia]. f_equal. apply IH. rewrite slength_app in L. lia.
Qed.
Theorem file_name ps camera frame : Forall (fun p => match p with Text s => no_hash s | _ => True end) ps ->
  frame_file (render_with "#camera" "#frame" ps) camera frame = render_with (to_string camera) (to_string frame) ps.
Proof.
  intros F. unfold frame_file, replace_all. rewrite (piece_ok "camera" (to_string camera) "frame" ps) by (auto; lia).
  set (ps' := map (fun p => match p with Text s => Text s | Cam => Text (to_string camera) | Frm => Cam end) ps).
  assert (E : forall a, render_with (to_string camera) a ps = render_with a "x" ps').
  { intros a. unfold ps'. clear. induction ps as [|[s| |] ps IH]; simpl; rewrite ?IH; reflexivity. }
  rewrite !E. assert (E' : forall a, render_with a "x" ps' = render_with a "#camera" ps').
  { intros a. unfold ps'. clear. induction ps as [|[s| |] ps IH]; simpl; rewrite ?IH; reflexivity. }
  rewrite !E'. apply (piece_ok "frame" (to_string frame) "camera" ps'); [auto| |lia].
  unfold ps'. clear -F. induction F as [|p ps H F IH]; simpl; constructor; try assumption. destruct p; [exact H|apply to_string_no_hash|exact I].
Qed.

(** ** Mapping *)
Section Mapping.
  Context {N : Num}.
  Lemma NoDup_snoc {A} (l : list A) a : NoDup l -> ~ In a l -> NoDup (l ++ [a]).
  Proof.
    intros H NI. induction H as [|b l Hb H IH]; simpl; [constructor; [intros []|constructor]|]. constructor.
    - rewrite in_app_iff. intros [J|[J|[]]]; [contradiction|]. subst. apply NI. left. reflexivity.
    - apply IH. intros J. apply NI. right. exact J.
  Qed.
  Lemma visit_inv owned : forall ds (acc : list (nat * pt N)), NoDup (map fst acc) ->
    NoDup (map fst (fold_left (visit owned) ds acc)) /\
    (forall d x, In (d, x) (fold_left (visit owned) ds acc) -> In (d, x) acc \/ (In (d, x) ds /\ owned d = true)) /\
    (forall d, In d (map fst (fold_left (visit owned) ds acc)) <-> In d (map fst acc) \/ (In d (map fst ds) /\ owned d = true)).
  Proof.
    induction ds as [|[d x] ds IH]; intros acc ND; cbn [fold_left].
    - split; [exact ND|]. split; [auto|]. intros d. simpl. tauto.
    - assert (ND' : NoDup (map fst (visit owned acc (d, x)))).
      { unfold visit. cbn [fst]. destruct (existsb (Nat.eqb d) (map fst acc)) eqn:Ex; cbn [negb andb]; [exact ND|]. destruct (owned d); [|exact ND].
        rewrite map_app. simpl. apply NoDup_snoc; [exact ND|]. intros I. assert (existsb (Nat.eqb d) (map fst acc) = true) by (apply existsb_exists; exists d; split; [exact I|apply Nat.eqb_refl]). congruence. }
      destruct (IH _ ND') as (A & B & C). split; [exact A|]. split.
      + intros e y I. destruct (B e y I) as [J|[J K]]; [|right; split; [right; exact J|exact K]].
        unfold visit in J. cbn [fst] in J. destruct (negb (existsb (Nat.eqb d) (map fst acc)) && owned d) eqn:Ev; [|left; exact J].
        apply in_app_iff in J. destruct J as [J|[J|[]]]; [left; exact J|]. injection J as <- <-. right. split; [left; reflexivity|]. apply andb_prop in Ev. apply Ev.
      + intros e. rewrite C. unfold visit. cbn [fst map]. destruct (existsb (Nat.eqb d) (map fst acc)) eqn:Ex; cbn [negb andb].
        * apply existsb_exists in Ex. destruct Ex as (z & I & Ez). apply Nat.eqb_eq in Ez. subst z. simpl. split; [tauto|]. intros [H|[[<-|H] K]]; auto.
        * destruct (owned d) eqn:Eo.
          -- rewrite map_app, in_app_iff. simpl. split; [intros [[H|[<-|[]]]|H]; tauto|]. intros [H|[[<-|H] K]]; tauto.
          -- simpl. split; [tauto|]. intros [H|[[<-|H] K]]; [tauto|congruence|tauto].
  Qed.
  Theorem support_ok owned (cells : list (list (nat * pt N))) :
    NoDup (map fst (dof_to_support owned cells)) /\
    (forall d, In d (map fst (dof_to_support owned cells)) <-> owned d = true /\ exists c, In c cells /\ In d (map fst c)) /\
    (forall d x, In (d, x) (dof_to_support owned cells) -> exists c, In c cells /\ In (d, x) c).
  Proof.
    unfold dof_to_support. destruct (visit_inv owned (List.concat cells) [] (NoDup_nil _)) as (A & B & C). split; [exact A|]. split.
    - intros d. rewrite C. split.
      + intros [[]|[H K]]. split; [exact K|]. apply in_map_iff in H. destruct H as ([e x] & <- & H). apply in_concat in H. destruct H as (c & Hc & H).
        exists c. split; [exact Hc|]. apply in_map_iff. exists (e, x). auto.
      + intros (K & c & Hc & H). right. split; [|exact K]. apply in_map_iff in H. destruct H as ([e x] & <- & H). apply in_map_iff. exists (e, x). split; [reflexivity|].
        apply in_concat. exists c. auto.
    - intros d x I. destruct (B d x I) as [[]|[H _]]. apply in_concat in H. exact H.
  Qed.

  Lemma local_indices_ok local my_rank : forall founds i, (forall f, In (Some f) founds -> snd f = my_rank -> (fst f < List.length local)%nat) -> ~ In None founds ->
    local_indices local my_rank founds i = Ok (combine (seq i (List.length founds)) (map (fun o => match o with Some f => if Nat.eqb (snd f) my_rank then Z.of_nat (nth (fst f) local 0%nat) else (-1)%Z | None => (-1)%Z end) founds)).
  Proof.
    induction founds as [|[f|] rest IH]; intros i H NN.
    - reflexivity.
    - cbn [local_indices]. unfold local_index, at_. destruct (Nat.eqb_spec (snd f) my_rank) as [E|E].
      + assert (L := H f (or_introl eq_refl) E). rewrite (nth_error_nth' local 0%nat L). cbn [bind].
        rewrite IH; [|intros g I; apply H; right; exact I|intros I; apply NN; right; exact I]. cbn [bind List.length seq map combine].
        destruct (Nat.eqb_spec (snd f) my_rank); [reflexivity|contradiction].
      + cbn [bind]. rewrite IH; [|intros g I; apply H; right; exact I|intros I; apply NN; right; exact I]. cbn [bind List.length seq map combine].
        destruct (Nat.eqb_spec (snd f) my_rank); [contradiction|reflexivity].
    - exfalso. apply NN. left. reflexivity.
  Qed.
  Lemma all_ok_map {A B} (f : A -> res B) (g : A -> B) l : (forall x, In x l -> f x = Ok (g x)) -> all_ok (map f l) = Ok (map g l).
  Proof.
    induction l as [|a l IH]; intros H; [reflexivity|]. cbn [map all_ok]. rewrite (H a) by (left; reflexivity). cbn [bind].
    rewrite IH by (intros x I; apply H; right; exact I). reflexivity.
  Qed.
  Lemma max_lists_map {A} (f g : A -> Z) l : max_lists (map f l) (map g l) = map (fun x => Z.max (f x) (g x)) l.
  Proof. induction l as [|a l IH]; simpl; congruence. Qed.
  Definition owner_value (locals : list (list nat)) (f : nat * nat) : Z := Z.of_nat (nth (fst f) (nth (snd f) locals []) 0%nat).
  Lemma map_snd_combine {A B} (a : list A) : forall b : list B, List.length a = List.length b -> map snd (combine a b) = b.
  Proof. induction a as [|x a IH]; intros [|y b] H; simpl in *; try discriminate; [reflexivity|]. f_equal. apply IH. lia. Qed.
  Lemma map_fst_combine {A B} (a : list A) : forall b : list B, List.length a = List.length b -> map fst (combine a b) = a.
  Proof. induction a as [|x a IH]; intros [|y b] H; simpl in *; try discriminate; [reflexivity|]. f_equal. apply IH. lia. Qed.
  Theorem mapping_ok (locals : list (list nat)) (founds : list (nat * nat)) : (forall f, In f founds -> (snd f < List.length locals)%nat /\ (fst f < List.length (nth (snd f) locals []))%nat) -> locals <> [] ->
    expt_to_dof locals (map Some founds) = Ok (seq 0 (List.length founds), map (fun f => Z.of_nat (nth (fst f) (nth (snd f) locals []) 0%nat)) founds).
  Proof.
    intros H NE. unfold expt_to_dof.
    set (val := fun (r : nat) (local : list nat) (f : nat * nat) => if Nat.eqb (snd f) r then Z.of_nat (nth (fst f) local 0%nat) else (-1)%Z).
    rewrite (all_ok_map _ (fun '(r, local) => combine (seq 0 (List.length founds)) (map (val r local) founds))).
    2:{ intros [r local] I. rewrite local_indices_ok.
        - rewrite map_length, map_map. reflexivity.
        - intros f If E. apply in_map_iff in If. destruct If as (f' & Ef & If). injection Ef as <-.
          assert (local = nth r locals []) as ->.
          { apply In_nth with (d := (0%nat, [])) in I. destruct I as (k & Lk & Ek). rewrite combine_length, seq_length, Nat.min_id in Lk.
            rewrite combine_nth in Ek by apply seq_length. rewrite seq_nth in Ek by exact Lk. injection Ek as <- <-. reflexivity. }
          rewrite <- E. apply H, If.
        - intros I'. apply in_map_iff in I'. destruct I' as (f & Ef & _). discriminate. }
    cbn [bind].
    assert (G : forall ls s (acc : nat * nat -> Z),
      fold_left (fun a l => max_lists a (map snd l)) (map (fun '(r, local) => combine (seq 0 (List.length founds)) (map (val r local) founds)) (combine (seq s (List.length ls)) ls)) (map acc founds) =
      map (fun f => fold_left (fun a '(r, local) => Z.max a (val r local f)) (combine (seq s (List.length ls)) ls) (acc f)) founds).
    { induction ls as [|l ls IH]; intros s acc; [reflexivity|]. cbn [List.length seq combine map fold_left].
      rewrite map_snd_combine by (rewrite seq_length, map_length; reflexivity). rewrite max_lists_map. apply IH. }
    destruct locals as [|l0 locals]; [contradiction|]. cbn [List.length seq combine map].
    rewrite map_fst_combine, map_snd_combine by (rewrite seq_length, map_length; reflexivity). f_equal. f_equal.
    rewrite (G locals 1%nat (val 0%nat l0)). apply map_ext_in. intros f If. destruct (H f If) as [Hr Hi].
    (* the maximum over the ranks is the value of the owner *)
    assert (M : forall (ls : list (list nat)) (s : nat) (a : Z), ((s <= snd f)%nat -> a = (-1)%Z) -> ((snd f < s)%nat -> (0 <= a)%Z) -> (snd f < s + List.length ls)%nat ->
       fold_left (fun a '(r, local) => Z.max a (val r local f)) (combine (seq s (List.length ls)) ls) a = if Nat.ltb (snd f) s then a else Z.of_nat (nth (fst f) (nth (snd f - s) ls []) 0%nat)).
    { clear -val. induction ls as [|l ls IH]; intros s a Hs Hp L.
      - simpl in L. destruct (Nat.ltb_spec (snd f) s); [reflexivity|lia].
      - cbn [List.length seq combine fold_left]. unfold val at 2. destruct (Nat.eqb_spec (snd f) s) as [E|E].
        + rewrite (Hs ltac:(lia)). rewrite Z.max_r by lia. rewrite IH; [|intros; lia|intros; lia|simpl in L; lia].
          destruct (Nat.ltb_spec (snd f) (S s)); [|lia]. destruct (Nat.ltb_spec (snd f) s); [lia|]. rewrite E, Nat.sub_diag. reflexivity.
        + destruct (Nat.lt_ge_cases (snd f) s) as [Q|Q].
          * specialize (Hp Q). rewrite Z.max_l by lia. rewrite IH; [|intros; lia|intros; lia|simpl in L; lia].
            destruct (Nat.ltb_spec (snd f) (S s)), (Nat.ltb_spec (snd f) s); try lia; reflexivity.
          * rewrite (Hs Q). rewrite Z.max_id. rewrite IH; [|intros; lia|intros; lia|simpl in L; lia].
            destruct (Nat.ltb_spec (snd f) (S s)), (Nat.ltb_spec (snd f) s); try lia. replace (snd f - s)%nat with (S (snd f - S s)) by lia. reflexivity. }
    rewrite M.
    - destruct (Nat.ltb_spec (snd f) 1) as [Q|Q].
      + assert (E : snd f = 0%nat) by lia. unfold val. rewrite E. reflexivity.
      + destruct (snd f) as [|r]; [lia|]. rewrite Nat.sub_succ, Nat.sub_0_r. reflexivity.
    - intros Q. unfold val. destruct (Nat.eqb_spec (snd f) 0); [lia|reflexivity].
    - intros Q. unfold val. destruct (Nat.eqb_spec (snd f) 0); [lia|lia].
    - simpl in Hr. lia.
  Qed.

  (** The last observation of a degree of freedom. *)
  Theorem set_ok owned : forall (values : list N) dofs temperature, (List.length values <= List.length dofs)%nat ->
    exists T, set_with owned values dofs temperature = Ok T /\
      forall d, (T d = temperature d /\ forall i, (i < List.length values)%nat -> nth_error dofs i = Some d -> owned d = false) \/
                (owned d = true /\ exists i, nth_error dofs i = Some d /\ nth_error values i = Some (T d) /\ forall i', (i < i' < List.length values)%nat -> nth_error dofs i' <> Some d).
  Proof.
    induction values as [|v values IH]; intros dofs temperature L.
    - exists temperature. split; [reflexivity|]. intros d. left. split; [reflexivity|]. intros i Hi. simpl in Hi. lia.
    - destruct dofs as [|d0 dofs]; [simpl in L; lia|]. cbn [set_with].
      destruct (IH dofs (if owned d0 then fun k => if Z.eqb k d0 then v else temperature k else temperature)) as (T & E & H); [simpl in L; lia|].
      exists T. split; [exact E|]. intros d. destruct (H d) as [(Ed & Ho)|(Ho & i & Di & Vi & Li)].
      + destruct (owned d0) eqn:O0.
        * destruct (Z.eqb_spec d d0) as [Edd|NE].
          -- subst d0. right. split; [exact O0|]. exists 0%nat. split; [reflexivity|]. split; [simpl; congruence|]. intros [|i'] Hi' J; [lia|]. simpl in J.
             rewrite (Ho i') in O0; [discriminate|simpl in Hi'; lia|exact J].
          -- left. split; [exact Ed|]. intros [|i] Hi J; simpl in J; [injection J as J; congruence|]. apply (Ho i); [simpl in Hi; lia|exact J].
        * left. split; [exact Ed|]. intros [|i] Hi J; simpl in J; [injection J as J; congruence|]. apply (Ho i); [simpl in Hi; lia|exact J].
      + right. split; [exact Ho|]. exists (S i). split; [exact Di|]. split; [exact Vi|]. intros [|i'] Hi' J; [lia|]. simpl in J, Hi'. apply (Li i'); [lia|exact J].
  Qed.
  Theorem set_ub owned (values : list N) temperature : values <> [] -> set_with owned values [] temperature = UB.
  Proof. destruct values; [contradiction|reflexivity]. Qed.
End Mapping.
