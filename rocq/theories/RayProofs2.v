(** RayProofs2.v -- C52: processes, counts, rows, degenerate faces. *)
From Coq Require Import Reals ZArith Bool List Lia Lra String Floats.
From Verif Require Import Base BaseFacts MaterialModel InputModel InputSpec InputProofs ExperimentModel ExperimentSpec RayModel GeometrySpec RaySpec RayProofs.
Import ListNotations.

Section Any.
  Context {N : Num}.
  Lemma kept_other my_rank (found : list (nat * nat)) : filter (fun ir => Nat.eqb (snd ir) my_rank) found = [] -> kept my_rank found = [].
  Proof.
    unfold kept. destruct found as [|first rest]; [reflexivity|]. intros H.
    assert (forall l, filter (fun ir => Nat.eqb (snd ir) my_rank) l = [] -> filter (fun ir : nat * nat => Nat.eqb (snd ir) (snd first) && Nat.eqb (snd ir) my_rank) l = []) as A.
    { induction l as [|x l IH]; [reflexivity|]. cbn [filter]. destruct (Nat.eqb (snd x) my_rank); [discriminate|]. rewrite andb_false_r. exact IH. }
    rewrite (A _ H). reflexivity.
  Qed.
  Lemma trace_no_cells tol my_rank cells (r : ray N) found : kept my_rank found = [] -> nltb N (nmax N) (nmax N) = false -> trace tol my_rank cells r found = Ok None.
  Proof. intros H I. unfold trace. rewrite H. cbn [cells_at bind fold_left]. rewrite I. reflexivity. Qed.

  Lemma trace_rays_ok tol my_rank cells : forall rays values found, List.length values = List.length rays -> List.length found = List.length rays ->
    (forall i r fd, nth_error rays i = Some r -> nth_error found i = Some fd -> exists h, trace (N := N) tol my_rank cells r fd = Ok h) ->
    exists hits, trace_rays tol my_rank cells rays values found = Ok (reported hits values) /\ List.length hits = List.length rays /\
      forall i r fd, nth_error rays i = Some r -> nth_error found i = Some fd -> exists h, nth_error hits i = Some h /\ trace tol my_rank cells r fd = Ok h.
  Proof.
    induction rays as [|r rays IH]; intros values found LV LF H.
    - exists []. split; [reflexivity|]. split; [reflexivity|]. intros [|i] r fd E; discriminate E.
    - destruct values as [|v values]; [discriminate|]. destruct found as [|fd found]; [discriminate|].
      destruct (H 0%nat r fd eq_refl eq_refl) as [h Eh]. destruct (IH values found) as (hits & E & L & S); [cbn in LV; congruence|cbn in LF; congruence|intros i r' fd' A B; apply (H (S i)); assumption|].
      exists (h :: hits). cbn [trace_rays]. rewrite Eh. cbn [bind tl]. split; [|split; [cbn; congruence|]].
      + destruct h as [q|]; cbn [at_ nth_error bind]; rewrite E; reflexivity.
      + intros [|i] r' fd' A B; cbn [nth_error] in *; [injection A as <-; injection B as <-; exists h; auto|apply S; assumption].
  Qed.
  Lemma reported_none (hits : list (option (pt N))) : forall values, (forall h, In h hits -> h = None) -> reported hits values = [].
  Proof.
    unfold reported. induction hits as [|h hits IH]; intros [|v values] H; try reflexivity. cbn [combine flat_map fst]. rewrite (H h (or_introl eq_refl)). apply IH. intros h' Hh. apply H. right. exact Hh.
  Qed.
  (** The early exit changes nothing. *)
  Lemma points_on_eq tol my_rank cells (rays : list (ray N)) values found : nltb N (nmax N) (nmax N) = false -> List.length values = List.length rays -> List.length found = List.length rays ->
    points_on tol my_rank cells rays values found = trace_rays tol my_rank cells rays values found.
  Proof.
    intros I LV LF. unfold points_on. destruct (Nat.eqb_spec (n_intersections my_rank found) 0) as [Z|Z]; [|reflexivity].
    assert (forall fd, In fd found -> kept my_rank fd = []) as K.
    { intros fd Hf. apply kept_other. unfold n_intersections in Z. destruct (filter (fun ir => Nat.eqb (snd ir) my_rank) fd) as [|x l] eqn:E; [reflexivity|exfalso].
      assert (In x (filter (fun ir => Nat.eqb (snd ir) my_rank) (List.concat found))) as IN.
      { apply filter_In. assert (In x (filter (fun ir => Nat.eqb (snd ir) my_rank) fd)) as IX by (rewrite E; left; reflexivity). apply filter_In in IX as [IX IY]. split; [|exact IY]. apply in_concat. exists fd. auto. }
      destruct (filter (fun ir => Nat.eqb (snd ir) my_rank) (List.concat found)); [destruct IN|discriminate Z]. }
    symmetry. destruct (trace_rays_ok tol my_rank cells rays values found LV LF) as (hits & E & L & S).
    - intros i r fd _ B. exists None. apply trace_no_cells; [|exact I]. apply K. eapply nth_error_In. exact B.
    - rewrite E. f_equal. apply reported_none. intros h Hh. apply In_nth_error in Hh as [i Ei].
      assert (i < List.length hits)%nat as Li by (apply nth_error_Some; congruence).
      destruct (nth_error rays i) as [r|] eqn:Er; [|apply nth_error_None in Er; lia]. destruct (nth_error found i) as [fd|] eqn:Ef; [|apply nth_error_None in Ef; lia].
      destruct (S i r fd Er Ef) as (h' & E1 & E2). rewrite Ei in E1. injection E1 as <-. rewrite trace_no_cells in E2; [congruence| |exact I]. apply K. eapply nth_error_In. exact Ef.
  Qed.
  (** There are never more points than candidates (the assertion at the end of the loop). *)
  Lemma trace_hit_kept tol my_rank cells (r : ray N) found q : nltb N (nmax N) (nmax N) = false -> trace tol my_rank cells r found = Ok (Some q) -> filter (fun ir => Nat.eqb (snd ir) my_rank) found <> [].
  Proof. intros I E F. apply kept_other in F. rewrite trace_no_cells in E by assumption. discriminate E. Qed.
  Lemma count_bound tol my_rank cells : nltb N (nmax N) (nmax N) = false -> forall (rays : list (ray N)) values found l, trace_rays tol my_rank cells rays values found = Ok l -> (List.length l <= n_intersections my_rank found)%nat.
  Proof.
    intros I. induction rays as [|r rays IH]; intros values found l E; cbn [trace_rays] in E; [injection E as <-; cbn; lia|].
    destruct found as [|fd found]; [discriminate E|]. unfold n_intersections. cbn [List.concat]. rewrite filter_app, app_length. fold (n_intersections my_rank found).
    destruct (trace tol my_rank cells r fd) as [h| |] eqn:T; cbn [bind] in E; try discriminate E. destruct h as [q|].
    - destruct (at_ values 0); cbn [bind] in E; try discriminate E. destruct (trace_rays tol my_rank cells rays (tl values) found) as [l'| |] eqn:E'; cbn [bind] in E; try discriminate E. injection E as <-.
      apply IH in E'. apply trace_hit_kept in T; [|exact I]. destruct (filter (fun ir => Nat.eqb (snd ir) my_rank) fd); [congruence|]. cbn [List.length]. lia.
    - apply IH in E. lia.
  Qed.
  Lemma points_bound tol my_rank cells (rays : list (ray N)) values found l : nltb N (nmax N) (nmax N) = false -> points_on tol my_rank cells rays values found = Ok l -> (List.length l <= n_intersections my_rank found)%nat.
  Proof. intros I. unfold points_on. destruct (Nat.eqb (n_intersections my_rank found) 0); [intros E; injection E as <-; cbn; lia|]. apply count_bound. exact I. Qed.
End Any.

Lemma max_not_less_R : nltb RNum (nmax RNum) (nmax RNum) = false.
Proof. change (Rltb (nmax RNum) (nmax RNum) = false). destruct (Rltb_spec (nmax RNum) (nmax RNum)) as [L|L]; [exfalso; exact (Rlt_irrefl _ L)|reflexivity]. Qed.

(** ** All processes *)
Lemma gather_ok (tol : R) (meshes : list (list (list (face RNum)))) (rays : list (ray RNum)) (values : list R) found : (0 < tol)%R ->
  (forall cells c f, In cells meshes -> In c cells -> In f c -> flat f) -> List.length values = List.length rays -> List.length found = List.length rays ->
  forall rank0, (forall k cells fd, nth_error meshes k = Some cells -> In fd found -> valid_found (rank0 + k) cells fd) ->
  exists hits, gather (N := RNum) tol rank0 meshes rays values found = Ok (List.concat (map (fun hs => reported (N := RNum) hs values) hits)) /\ List.length hits = List.length meshes /\
    forall k cells hs, nth_error meshes k = Some cells -> nth_error hits k = Some hs -> List.length hs = List.length rays /\
      forall i r fd, nth_error rays i = Some r -> nth_error found i = Some fd -> exists h, nth_error hs i = Some h /\ hit_spec tol (rank0 + k) cells r fd h.
Proof.
  intros T. revert values. induction meshes as [|cells meshes IH]; intros values FL LV LF rank0 VF.
  - exists []. split; [reflexivity|]. split; [reflexivity|]. intros [|k] cells hs E; discriminate E.
  - destruct (trace_rays_ok (N := RNum) tol rank0 cells rays values found LV LF) as (hs & E & L & SS).
    { intros i r fd _ B. assert (valid_found rank0 cells fd) as V by (rewrite <- (Nat.add_0_r rank0); apply (VF 0%nat); [reflexivity|eapply nth_error_In; exact B]).
      destruct (trace_spec tol rank0 cells r fd T (fun c f Hc Hf => FL cells c f (or_introl eq_refl) Hc Hf) V) as (h & Eh & _). exists h. exact Eh. }
    destruct (IH values (fun c0 c f Hc0 => FL c0 c f (or_intror Hc0)) LV LF (S rank0)) as (hits & EG & LG & SG).
    { intros k c0 fd Ek Hf. replace (S rank0 + k)%nat with (rank0 + S k)%nat by lia. apply (VF (S k)); assumption. }
    exists (hs :: hits). cbn [gather]. rewrite points_on_eq by (try exact max_not_less_R; assumption). rewrite E. cbn [bind]. rewrite EG. cbn [bind]. split; [reflexivity|]. split; [cbn; congruence|].
    intros [|k] c0 hs0 Ek Eh; cbn [nth_error] in *.
    + injection Ek as <-. injection Eh as <-. split; [exact L|]. intros i r fd Er Ef. destruct (SS i r fd Er Ef) as (h & E1 & E2). exists h. split; [exact E1|].
      assert (valid_found rank0 cells fd) as V by (rewrite <- (Nat.add_0_r rank0); apply (VF 0%nat); [reflexivity|eapply nth_error_In; exact Ef]).
      destruct (trace_spec tol rank0 cells r fd T (fun c f Hc Hf => FL cells c f (or_introl eq_refl) Hc Hf) V) as (h' & Eh' & SP). rewrite E2 in Eh'. injection Eh' as ->. rewrite Nat.add_0_r. exact SP.
    + destruct (SG k c0 hs0 Ek Eh) as (A & B). split; [exact A|]. replace (rank0 + S k)%nat with (S rank0 + k)%nat by lia. exact B.
Qed.
Lemma all_processes (tol : R) (meshes : list (list (list (face RNum)))) (rays : list (ray RNum)) (values : list R) found : (0 < tol)%R ->
  (forall cells c f, In cells meshes -> In c cells -> In f c -> flat f) -> List.length values = List.length rays -> List.length found = List.length rays ->
  (forall k cells fd, nth_error meshes k = Some cells -> In fd found -> valid_found k cells fd) ->
  exists hits, get_points_values (N := RNum) tol meshes rays values found = Ok (List.concat (map (fun hs => reported (N := RNum) hs values) hits)) /\ List.length hits = List.length meshes /\
    forall k cells hs, nth_error meshes k = Some cells -> nth_error hits k = Some hs -> List.length hs = List.length rays /\
      forall i r fd, nth_error rays i = Some r -> nth_error found i = Some fd -> exists h, nth_error hs i = Some h /\ hit_spec tol k cells r fd h.
Proof. intros T FL LV LF VF. exact (gather_ok tol meshes rays values found T FL LV LF 0%nat VF). Qed.
(** A ray is reported by at most one process. *)
Lemma one_process tol k k' cells cells' r fd q q' : hit_spec tol k cells r fd (Some q) -> hit_spec tol k' cells' r fd (Some q') -> k = k'.
Proof. intros (f & d & (a & b & i & c & E & A & _) & _) (f' & d' & (a' & b' & i' & c' & E' & A' & _) & _). rewrite E in E'. injection E' as <- _. congruence. Qed.
(** If the candidates contain all the cells the ray meets, on one process, the point is the nearest one of the whole mesh. *)
Lemma nearest_of_mesh tol meshes k cells r fd hit : nth_error meshes k = Some cells -> hit_spec tol k cells r fd hit ->
  (forall ir, In ir fd -> snd ir = k) -> (forall rank i f d, face_in_mesh meshes rank i f -> ~ grazing tol r f -> meets r f d -> In (i, rank) fd) ->
  match hit with
  | Some q => exists i f d, face_in_mesh meshes k i f /\ meets r f d /\ q = along r d /\ forall rank j f' d', face_in_mesh meshes rank j f' -> ~ grazing tol r f' -> meets r f' d' -> (d <= d')%R
  | None => forall rank j f' d', face_in_mesh meshes rank j f' -> ~ grazing tol r f' -> meets r f' d' -> (nmax RNum <= d')%R
  end.
Proof.
  intros Ek H ONE ALL.
  assert (TT : forall rank j f' d', face_in_mesh meshes rank j f' -> ~ grazing tol r f' -> meets r f' d' -> tested k cells fd f').
  { intros rank j f' d' F G M. assert (IN := ALL rank j f' d' F G M). assert (rank = k) as -> by (apply (ONE _ IN)). destruct F as (cells0 & c & E1 & E2 & E3). rewrite Ek in E1. injection E1 as <-.
    destruct fd as [|first rest]; [destruct IN|]. exists first, rest, j, c. split; [reflexivity|]. split; [apply ONE; left; reflexivity|]. split; [exact IN|]. split; [exact E2|exact E3]. }
  destruct hit as [q|].
  - destruct H as (f & d & (first & rest & i & c & E & A & B & C & D) & G & M & Q & _ & MIN). exists i, f, d. split; [exists cells, c; auto|]. split; [exact M|]. split; [exact Q|].
    intros rank j f' d' F G' M'. apply (MIN f'); [apply (TT rank j f' d')|..]; assumption.
  - intros rank j f' d' F G' M'. apply (H f'); [apply (TT rank j f' d')|..]; assumption.
Qed.

(** ** Rows *)
Section Rows.
  Context {N : Num} (strtod : string -> N).
  Lemma skip_empty fields : forall i p, ray_fields (N := N) strtod i fields p = ray_fields strtod i (filter nonempty fields) p.
  Proof.
    induction fields as [|f rest IH]; intros i p; [reflexivity|]. cbn [ray_fields filter]. destruct f as [|c f]; cbn [String.length Nat.eqb nonempty String.eqb negb]; [apply IH|].
    cbn [ray_fields String.length Nat.eqb]. apply IH.
  Qed.
  Lemma tail_fields rest : (forall f, In f rest -> nonempty f = true) -> forall i p, (6 <= i)%nat ->
    ray_fields (N := N) strtod i rest p = mkrow (w_point p) (w_direction p) (match rest with [] => w_value p | _ => field_value strtod rest (List.length rest - 1) end).
  Proof.
    induction rest as [|f rest IH]; intros NE i p Hi; [destruct p; reflexivity|]. cbn [ray_fields].
    assert (Nat.eqb (String.length f) 0 = false) as -> by (specialize (NE f (or_introl eq_refl)); destruct f; [discriminate|reflexivity]).
    assert (Nat.ltb i 3 = false) as -> by (apply Nat.ltb_ge; lia). assert (Nat.ltb i 6 = false) as -> by (apply Nat.ltb_ge; lia).
    rewrite IH by (try lia; intros g Hg; apply NE; right; exact Hg). cbn [w_point w_direction w_value]. f_equal. destruct rest as [|g rest]; [reflexivity|].
    unfold field_value. cbn [List.length]. replace (S (S (List.length rest)) - 1)%nat with (S (S (List.length rest) - 1)) by lia. reflexivity.
  Qed.
  Lemma point_field f rest i p : nonempty f = true -> (i < 3)%nat -> ray_fields (N := N) strtod i (f :: rest) p = ray_fields strtod (S i) rest (mkrow (set_coord (w_point p) i (strtod f)) (w_direction p) (w_value p)).
  Proof. intros NE L. cbn [ray_fields]. assert (Nat.eqb (String.length f) 0 = false) as -> by (destruct f; [discriminate|reflexivity]). apply Nat.ltb_lt in L. rewrite L. reflexivity. Qed.
  Lemma direction_field f rest i p : nonempty f = true -> (3 <= i < 6)%nat ->
    ray_fields (N := N) strtod i (f :: rest) p = ray_fields strtod (S i) rest (mkrow (w_point p) (set_coord (w_direction p) (i - 3) (nsub N (strtod f) (nth (i - 3) (w_point p) (nofZ N 0)))) (w_value p)).
  Proof.
    intros NE L. cbn [ray_fields]. assert (Nat.eqb (String.length f) 0 = false) as -> by (destruct f; [discriminate|reflexivity]).
    assert (Nat.ltb i 3 = false) as -> by (apply Nat.ltb_ge; lia). assert (Nat.ltb i 6 = true) as -> by (apply Nat.ltb_lt; lia). reflexivity.
  Qed.
  Lemma no_field i p : ray_fields (N := N) strtod i [] p = p.
  Proof. reflexivity. Qed.
  Lemma ray_row_ok line fields : words_of line fields -> ray_row_means strtod (filter nonempty fields) (read_ray (N := N) strtod line).
  Proof.
    intros W. unfold read_ray. fold (words line). rewrite <- (words_unique _ _ W). rewrite skip_empty. assert (forall f, In f (filter nonempty fields) -> nonempty f = true) as NE by (intros f Hf; apply filter_In in Hf; tauto).
    revert NE. generalize (filter nonempty fields). clear. intros l NE.
    destruct l as [|a l]; [rewrite no_field; split; [reflexivity|split; reflexivity]|]. rewrite point_field by (first [apply NE; cbn; tauto|lia]). cbn [set_coord repeat w_point w_direction w_value].
    destruct l as [|b l]; [rewrite no_field; split; [reflexivity|split; reflexivity]|]. rewrite point_field by (first [apply NE; cbn; tauto|lia]). cbn [set_coord repeat w_point w_direction w_value].
    destruct l as [|c l]; [rewrite no_field; split; [reflexivity|split; reflexivity]|]. rewrite point_field by (first [apply NE; cbn; tauto|lia]). cbn [set_coord repeat w_point w_direction w_value].
    destruct l as [|d l]; [rewrite no_field; split; [reflexivity|split; reflexivity]|]. rewrite direction_field by (first [apply NE; cbn; tauto|lia]). cbn [set_coord repeat w_point w_direction w_value Nat.sub nth].
    destruct l as [|e l]; [rewrite no_field; split; [reflexivity|split; reflexivity]|]. rewrite direction_field by (first [apply NE; cbn; tauto|lia]). cbn [set_coord repeat w_point w_direction w_value Nat.sub nth].
    destruct l as [|g l]; [rewrite no_field; split; [reflexivity|split; reflexivity]|]. rewrite direction_field by (first [apply NE; cbn; tauto|lia]). cbn [set_coord repeat w_point w_direction w_value Nat.sub nth].
    rewrite tail_fields; [|intros x Hx; apply NE; do 6 right; exact Hx|lia]. cbn [w_point w_direction w_value].
    split; [reflexivity|]. split; [reflexivity|]. cbn [w_value]. destruct l as [|x l]; [reflexivity|]. cbn [List.length].
    assert (Nat.ltb 6 (S (S (S (S (S (S (S (List.length l)))))))) = true) as -> by (apply Nat.ltb_lt; lia).
    replace (S (S (S (S (S (S (S (List.length l)))))) ) - 1)%nat with (S (S (S (S (S (S (S (List.length l) - 1))))))) by lia. reflexivity.
  Qed.
End Rows.
