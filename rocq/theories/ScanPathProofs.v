(** ScanPathProofs.v -- proofs about the scan path model (C01-C06). *)
From Coq Require Import Reals ZArith Bool List String Ascii Sorted Lra Lia.
From Verif Require Import Base BaseFacts QuaternionModel ScanPathModel ScanPathSpec.
Import ListNotations.

Lemma bind_ok {A B} (r : res A) (f : A -> res B) b : bind r f = Ok b -> exists a, r = Ok a /\ f a = Ok b.
Proof. destruct r; simpl; try discriminate. eauto. Qed.

Ltac inv_bind H :=
  let a := fresh "a" in let Ha := fresh "E" in
  apply bind_ok in H; destruct H as [a [Ha H]].

Section Generic.
  Context {N : Num}.
  Implicit Types (sp : scan_path N) (segs l : list (seg N)).

  (** ** The cursor *)
  Lemma advance_skip l : forall o i t,
    (forall j, (j < o)%nat -> exists s, nth_error l j = Some s /\ nltb N (end_time s) t = true) ->
    advance (skipn o l) (i + o) t = advance l i t.
  Proof.
    induction l as [|s l IH]; intros o i t H.
    - destruct o; [reflexivity|].
      destruct (H 0%nat) as [s [E _]]; [lia|]. discriminate E.
    - destruct o; [simpl skipn; now rewrite Nat.add_0_r|].
      simpl. destruct (H 0%nat) as [s0 [E0 L0]]; [lia|]. simpl in E0. injection E0 as <-.
      rewrite L0. replace (i + S o)%nat with (S i + o)%nat by lia. apply IH.
      intros j Hj. apply (H (S j)). lia.
  Qed.

  Lemma advance_current l : forall t i c, advance l i t = Ok c ->
    exists k s, c = (i + k)%nat /\ current l t k s.
  Proof.
    induction l as [|s l IH]; intros t i c H; simpl in H; [discriminate|].
    destruct (nltb N (end_time s) t) eqn:E.
    - destruct (IH _ _ _ H) as [k [s' [-> [H1 [H2 H3]]]]].
      exists (S k), s'. split; [lia|]. split; [exact H1|]. split; [exact H2|].
      intros [|j] s'' Hj Hs; simpl in Hs; [injection Hs as <-; exact E|]. eapply H3; [|exact Hs]. lia.
    - injection H as <-. exists 0%nat, s. split; [lia|]. split; [reflexivity|]. split; [exact E|].
      intros j s' Hj. lia.
  Qed.

  Lemma advance_ok l : forall t i s, In s l -> nltb N (end_time s) t = false -> exists c, advance l i t = Ok c.
  Proof.
    induction l as [|s0 l IH]; intros t i s Hin Hs; simpl in Hin; [contradiction|].
    simpl. destruct (nltb N (end_time s0) t) eqn:E; [|eauto].
    destruct Hin as [->|Hin]; [congruence|]. eapply IH; eauto.
  Qed.

  Lemma current_unique l t i s i' s' : current l t i s -> current l t i' s' -> i = i' /\ s = s'.
  Proof.
    intros [A1 [A2 A3]] [B1 [B2 B3]].
    destruct (Nat.lt_trichotomy i i') as [H|[->|H]].
    - rewrite (B3 _ _ H A1) in A2. discriminate.
    - split; [reflexivity|congruence].
    - rewrite (A3 _ _ H B1) in B2. discriminate.
  Qed.

  (** Same object up to the cursor. *)
  Lemma set_old_segs sp o : sp_segs (set_old sp o) = sp_segs sp.
  Proof. reflexivity. Qed.

  (** [skippable sp t]: everything before the cursor ended before [t]. *)
  Definition skippable sp t : Prop :=
    forall j, (j < sp_old sp)%nat -> exists s, nth_error (sp_segs sp) j = Some s /\ nltb N (end_time s) t = true.

  Lemma update_skip sp t save : skippable sp t ->
    update_current_segment_info sp t save =
    do r <- update_current_segment_info (set_old sp 0) t save;
    let '(c, p, t0, q, sp') := r in Ok (c, p, t0, q, if (save : bool) then sp' else sp).
  Proof.
    intros H. unfold update_current_segment_info. cbn [sp_old sp_segs set_old skipn].
    rewrite <- (advance_skip (sp_segs sp) (sp_old sp) 0 t H). simpl plus.
    destruct (advance (skipn (sp_old sp) (sp_segs sp)) (sp_old sp) t) as [c| |]; simpl; try reflexivity.
    destruct c; simpl.
    - destruct (at_ (sp_segs sp) 0); simpl; destruct save; reflexivity.
    - destruct (at_ (sp_segs sp) c); simpl; destruct save; reflexivity.
  Qed.

  Lemma ask_skip pow sp q : skippable sp (query_time q) ->
    match ask pow sp q, ask pow (set_old sp 0) q with
    | Ok (a, _), Ok (a', _) => a = a'
    | Throw, Throw => True
    | UB, UB => True
    | _, _ => False
    end.
  Proof.
    intros H. destruct q as [t save|t|t]; simpl in *.
    - unfold value. simpl sp_segs. destruct (back (sp_segs sp)) as [last| |]; simpl; auto.
      destruct (nltb N (end_time last) t); simpl; auto.
      rewrite (update_skip sp t save H).
      destruct (update_current_segment_info (set_old sp 0) t save) as [[[[[c p] t0] q] sp']| |]; simpl; auto.
      destruct (at_ (sp_segs sp) c); simpl; auto.
    - unfold get_power_modifier. simpl sp_segs. destruct (back (sp_segs sp)) as [last| |]; simpl; auto.
      destruct (nltb N (end_time last) t); simpl; auto.
      rewrite (update_skip sp t true H).
      destruct (update_current_segment_info (set_old sp 0) t true) as [[[[[c p] t0] q] sp']| |]; simpl; auto.
      destruct (at_ (sp_segs sp) c); simpl; auto.
    - unfold get_quaternion. simpl sp_segs. simpl sp_five_axis. destruct (sp_five_axis sp); simpl; auto.
      destruct (back (sp_segs sp)) as [last| |]; simpl; auto.
      destruct (nltb N (end_time last) t); simpl; auto.
      rewrite (update_skip sp t false H).
      destruct (update_current_segment_info (set_old sp 0) t false) as [[[[[c p] t0] q] sp']| |]; simpl; auto.
      destruct (at_ (sp_segs sp) c) as [s| |]; simpl; auto.
      destruct q as [q0|], (end_rotation s) as [q1|]; simpl; auto.
      + destruct (qeqb q0 q1); simpl; auto.
        destruct (nltb N (nsub N (end_time s) t0) _); simpl; auto.
        destruct (pow _ _); simpl; auto.
      + destruct (nltb N (nsub N (end_time s) t0) _); simpl; auto.
  Qed.

  (** What a query does to the object: nothing but moving the cursor to the current segment. *)
  Lemma update_inv sp t save c p0 t0 r0 sp' :
    update_current_segment_info sp t save = Ok (c, p0, t0, r0, sp') ->
    sp' = (if save then set_old sp c else sp) /\
    advance (skipn (sp_old sp) (sp_segs sp)) (sp_old sp) t = Ok c.
  Proof.
    unfold update_current_segment_info. intros H. inv_bind H. inv_bind H.
    destruct a0 as [[p t'] r]. injection H as <- <- <- <- <-. auto.
  Qed.

  Lemma ask_after pow sp q a sp' : ask pow sp q = Ok (a, sp') ->
    sp' = sp \/ exists c, sp' = set_old sp c /\
      advance (skipn (sp_old sp) (sp_segs sp)) (sp_old sp) (query_time q) = Ok c.
  Proof.
    destruct q as [t save|t|t]; simpl; intros H; inv_bind H; injection H as <- <-.
    - destruct a0 as [p sp'']. simpl. unfold value in E. inv_bind E.
      destruct (nltb N (end_time a) t); [injection E as <- <-; auto|].
      inv_bind E. destruct a0 as [[[[c p0] t0] r0] sp']. inv_bind E. injection E as <- <-.
      apply update_inv in E1. destruct E1 as [-> E1]. destruct save; eauto.
    - destruct a0 as [p sp'']. simpl. unfold get_power_modifier in E. inv_bind E.
      destruct (nltb N (end_time a) t); [injection E as <- <-; auto|].
      inv_bind E. destruct a0 as [[[[c p0] t0] r0] sp']. inv_bind E. injection E as <- <-.
      apply update_inv in E1. destruct E1 as [-> E1]. eauto.
    - auto.
  Qed.

  Lemma set_old_0 sp : sp_old sp = 0%nat -> set_old sp 0 = sp.
  Proof. destruct sp; simpl; intros ->; reflexivity. Qed.

  Section Embedded.
    Context (dom : N -> Prop) (val : N -> R) (E : Embeds N dom val).

    Lemma ltb_mono x t t' : dom x -> dom t -> dom t' -> (val t <= val t')%R ->
      nltb N x t = true -> nltb N x t' = true.
    Proof.
      intros Dx Dt Dt' L. rewrite !(emb_ltb _ _ _ E) by assumption. rewrite !Rltb_true. lra.
    Qed.

    Lemma skippable_mono sp t t' : Forall (fun s => dom (end_time s)) (sp_segs sp) -> dom t -> dom t' ->
      (val t <= val t')%R -> skippable sp t -> skippable sp t'.
    Proof.
      intros F Dt Dt' L H j Hj. destruct (H j Hj) as [s [Es Ls]]. exists s. split; [exact Es|].
      refine (ltb_mono _ t t' _ Dt Dt' L Ls).
      rewrite Forall_forall in F. apply F. eapply nth_error_In; eauto.
    Qed.

    (** After a query at [t] the object is skippable for every later time. *)
    Lemma skippable_after pow sp q a sp' t' :
      Forall (fun s => dom (end_time s)) (sp_segs sp) -> dom (query_time q) -> dom t' ->
      (val (query_time q) <= val t')%R ->
      skippable sp (query_time q) -> ask pow sp q = Ok (a, sp') -> skippable sp' t'.
    Proof.
      intros F Dq Dt' L Hsk Hask.
      destruct (ask_after _ _ _ _ _ Hask) as [->|[c [-> Hadv]]].
      - eapply skippable_mono; [exact F|exact Dq|exact Dt'|exact L|exact Hsk].
      - assert (Hadv0 : advance (sp_segs sp) 0 (query_time q) = Ok c).
        { rewrite <- Hadv. symmetry. exact (advance_skip _ _ 0%nat _ Hsk). }
        destruct (advance_current _ _ _ _ Hadv0) as [k [s [-> [C1 [C2 C3]]]]].
        apply skippable_mono with (t := query_time q); auto.
        intros j Hj. simpl in Hj. simpl sp_segs.
        destruct (at_lt (sp_segs sp) j) as [s' [Es' _]].
        { assert (k < List.length (sp_segs sp))%nat by (apply nth_error_Some; congruence). simpl in *; lia. }
        exists s'. split; [exact Es'|]. eapply C3; [|exact Es']. exact Hj.
    Qed.

    Lemma ask_after_segs pow sp q a sp' : ask pow sp q = Ok (a, sp') -> sp_segs sp' = sp_segs sp /\ set_old sp' 0 = set_old sp 0.
    Proof.
      intros H. destruct (ask_after _ _ _ _ _ H) as [->|[c [-> _]]]; split; reflexivity.
    Qed.

    Lemma ask_all_fresh pow : forall qs sp,
      Forall (fun s => dom (end_time s)) (sp_segs sp) ->
      Forall (fun q => dom (query_time q)) qs ->
      nondecreasing (map (fun q => val (query_time q)) qs) ->
      (forall q, In q qs -> skippable sp (query_time q)) ->
      ask_all pow sp qs = fresh_answers pow (set_old sp 0) qs.
    Proof.
      induction qs as [|q qs IH]; intros sp F D S Hsk; [reflexivity|].
      simpl. inversion D as [|? ? Dq Dqs]; subst. inversion S as [|? ? Sq Fq]; subst.
      assert (Hq := ask_skip pow sp q (Hsk q (or_introl eq_refl))).
      destruct (ask pow sp q) as [[a sp']| |] eqn:EA;
        destruct (ask pow (set_old sp 0) q) as [[a' sp'']| |]; try contradiction; try reflexivity.
      subst a'. simpl.
      destruct (ask_after_segs _ _ _ _ _ EA) as [E1 E2].
      rewrite IH; [rewrite E2; reflexivity|rewrite E1; exact F|exact Dqs|exact Sq|].
      intros q' Hq'. eapply skippable_after; [exact F|exact Dq| | | |exact EA].
      - rewrite Forall_forall in Dqs. auto.
      - rewrite Forall_map, Forall_forall in Fq. apply (Fq q' Hq').
      - apply Hsk. left; reflexivity.
    Qed.
  End Embedded.

  Lemma new_scan_path_old P fmt ds vs lines sp : new_scan_path P fmt ds vs lines = Ok sp -> sp_old sp = 0%nat.
  Proof.
    unfold new_scan_path. intros H. inv_bind H. unfold read_file in H. simpl in H.
    destruct a; inv_bind H; [destruct a as [s f]|destruct a as [[s f] v]]; injection H as <-; reflexivity.
  Qed.

  Lemma history_independent P fmt ds vs lines sp (dom : N -> Prop) (val : N -> R) pow qs :
    Embeds N dom val ->
    new_scan_path P fmt ds vs lines = Ok sp ->
    Forall (fun s => dom (end_time s)) (sp_segs sp) ->
    Forall (fun q => dom (query_time q)) qs ->
    nondecreasing (map (fun q => val (query_time q)) qs) ->
    ask_all pow sp qs = fresh_answers pow sp qs.
  Proof.
    intros E Hn F D S. assert (O := new_scan_path_old _ _ _ _ _ _ Hn).
    rewrite (ask_all_fresh dom val E pow qs sp F D S).
    - rewrite set_old_0 by exact O. reflexivity.
    - intros q _ j Hj. rewrite O in Hj. lia.
  Qed.

  (** ** Fresh answers *)
  Lemma back_inv {A} (l : list A) a : back l = Ok a -> exists l' : list A, l = l' ++ [a].
  Proof.
    intros H. destruct l as [|x l]; [discriminate|].
    destruct (exists_last (l := x :: l)) as [l' [b E]]; [discriminate|].
    rewrite E in *. rewrite back_app in H. injection H as <-. eauto.
  Qed.

  Lemma back_of_last segs s : last_segment segs s -> back segs = Ok s.
  Proof. intros [l ->]. apply back_app. Qed.

  Lemma current_exists segs t last :
    last_segment segs last -> nltb N (end_time last) t = false -> exists i s, current segs t i s.
  Proof.
    intros [l ->] H. destruct (advance_ok (l ++ [last]) t 0 last) as [c Hc]; auto.
    { apply in_or_app. right. simpl. auto. }
    destruct (advance_current _ _ _ _ Hc) as [k [s [_ C]]]. eauto.
  Qed.

  Lemma update_fresh sp t save last : sp_old sp = 0%nat -> last_segment (sp_segs sp) last ->
    nltb N (end_time last) t = false ->
    exists i s p0 t0 r0, current (sp_segs sp) t i s /\ segment_start (sp_segs sp) i s p0 t0 /\
      update_current_segment_info sp t save = Ok (i, p0, t0, r0, if save then set_old sp i else sp).
  Proof.
    intros O [l El] H.
    destruct (advance_ok (sp_segs sp) t 0 last) as [c Hc]; auto.
    { rewrite El. apply in_or_app. right. simpl. auto. }
    destruct (advance_current _ _ _ _ Hc) as [k [s [-> C]]].
    unfold update_current_segment_info. rewrite O. simpl skipn. rewrite Hc. simpl plus. cbn [bind].
    destruct C as [C1 C23].
    destruct k as [|k].
    - unfold at_. rewrite C1. cbn [bind].
      exists 0%nat, s, (end_point s), (nofZ N 0), (end_rotation s). split; [split; auto|]. split; [split; reflexivity|]. reflexivity.
    - destruct (at_lt (sp_segs sp) k) as [s' [Es' [Ea _]]].
      { assert (S k < List.length (sp_segs sp))%nat by (apply nth_error_Some; congruence). lia. }
      rewrite Ea. cbn [bind].
      exists (S k), s, (end_point s'), (end_time s'), (end_rotation s'). split; [split; auto|].
      split; [exists s'; auto|]. reflexivity.
  Qed.

  Lemma value_fresh sp t save last : sp_old sp = 0%nat -> last_segment (sp_segs sp) last ->
    nltb N (end_time last) t = false ->
    exists i s p0 t0 sp', current (sp_segs sp) t i s /\ segment_start (sp_segs sp) i s p0 t0 /\
      value sp t save =
      Ok (padd p0 (pscale (nsub N t t0) (pdivs (psub (end_point s) p0) (nsub N (end_time s) t0))), sp').
  Proof.
    intros O L H. unfold value. rewrite (back_of_last _ _ L). cbn [bind]. rewrite H.
    destruct (update_fresh sp t save last O L H) as [i [s [p0 [t0 [r0 [C [S ->]]]]]]]. cbn [bind].
    assert (Ea : at_ (sp_segs sp) i = Ok s). { unfold at_. destruct C as [-> _]. reflexivity. }
    rewrite Ea. cbn [bind]. exists i, s, p0, t0, (if save then set_old sp i else sp). auto.
  Qed.

  Lemma power_fresh sp t last : sp_old sp = 0%nat -> last_segment (sp_segs sp) last ->
    nltb N (end_time last) t = false ->
    exists i s sp', current (sp_segs sp) t i s /\ get_power_modifier sp t = Ok (power_modifier s, sp').
  Proof.
    intros O L H. unfold get_power_modifier. rewrite (back_of_last _ _ L). cbn [bind]. rewrite H.
    destruct (update_fresh sp t true last O L H) as [i [s [p0 [t0 [r0 [C [S ->]]]]]]]. cbn [bind].
    assert (Ea : at_ (sp_segs sp) i = Ok s). { unfold at_. destruct C as [-> _]. reflexivity. }
    rewrite Ea. cbn [bind]. exists i, s, (set_old sp i). auto.
  Qed.

  Lemma value_after sp t save last : last_segment (sp_segs sp) last ->
    nltb N (end_time last) t = true -> value sp t save = Ok (lowest_point, sp).
  Proof. intros L H. unfold value. rewrite (back_of_last _ _ L). cbn [bind]. rewrite H. reflexivity. Qed.
  Lemma power_after sp t last : last_segment (sp_segs sp) last ->
    nltb N (end_time last) t = true -> get_power_modifier sp t = Ok (nofZ N 0, sp).
  Proof. intros L H. unfold get_power_modifier. rewrite (back_of_last _ _ L). cbn [bind]. rewrite H. reflexivity. Qed.
  Lemma ask_empty pow sp q : sp_segs sp = [] -> (forall t, q = QRotation t -> sp_five_axis sp = true) -> ask pow sp q = UB.
  Proof.
    intros H F. destruct q as [t s|t|t]; simpl; unfold value, get_power_modifier, get_quaternion; rewrite H; try reflexivity.
    rewrite (F t eq_refl). reflexivity.
  Qed.

  (** ** Loaders *)
  Context (P : parser N).

  Lemma num_tok_ok toks i v : num_tok P toks i = Ok v <-> exists s, nth_error toks i = Some s /\ stod P s = Some v.
  Proof.
    unfold num_tok, at_. destruct (nth_error toks i) as [s|]; simpl.
    - destruct (stod P s) eqn:E; split.
      + intros H; injection H as <-; eauto.
      + intros [s' [H1 H2]]. injection H1 as <-. congruence.
      + discriminate.
      + intros [s' [H1 H2]]. injection H1 as <-. congruence.
    - split; [discriminate|]. intros [s [H _]]. discriminate.
  Qed.

  Definition last_opt (segs : list (seg N)) : option (seg N) := predecessor segs (List.length segs).

  Lemma last_opt_snoc segs s : last_opt (segs ++ [s]) = Some s.
  Proof.
    unfold last_opt, predecessor. rewrite app_length. simpl. rewrite Nat.add_1_r.
    rewrite nth_error_app2 by lia. rewrite Nat.sub_diag. reflexivity.
  Qed.

  Lemma seg_line_iff ds vs segs line s :
    load_segment_line P ds vs segs line = Ok s <-> segment_of_line P ds vs (last_opt segs) line s.
  Proof.
    assert (Hsegs : (segs = [] /\ last_opt segs = None /\ Nat.ltb 0 (List.length segs) = false) \/
                    exists p, last_opt segs = Some p /\ back segs = Ok p /\ Nat.ltb 0 (List.length segs) = true).
    { destruct segs as [|x l]; [left; auto|right].
      destruct (exists_last (l := x :: l)) as [l' [b E]]; [discriminate|]. exists b. rewrite E.
      rewrite last_opt_snoc, back_app. split; [reflexivity|]. split; [reflexivity|].
      apply Nat.ltb_lt. rewrite app_length. simpl. lia. }
    unfold load_segment_line. split.
    - intros H. inv_bind H. inv_bind H. inv_bind H. inv_bind H. inv_bind H. inv_bind H.
      rename a into m, a0 into isp, a1 into x, a2 into y, a3 into z, a4 into pm.
      assert (M : nth_error (split is_space line) 0 = Some m).
      { unfold at_ in E. destruct (nth_error _ 0); [congruence|discriminate]. }
      rewrite num_tok_ok in E1, E2, E3, E4.
      destruct E1 as [sx [T1 V1]], E2 as [sy [T2 V2]], E3 as [sz [T3 V3]], E4 as [spm [T4 V4]].
      assert (HV : exists v sv, nth_error (split is_space line) 5 = Some sv /\ stod P sv = Some v /\
         end_point s = mkpt (nmul N x ds) (nmul N y ds) (nmul N z ds) /\ power_modifier s = pm /\ end_rotation s = None /\
         match last_opt segs with
         | None => m = "1"%string /\ end_time s = v
         | Some p => (m = "1"%string /\ end_time s = nadd N (end_time p) v) \/
            (m = "0"%string /\ end_time s = nadd N (end_time p)
               (nabs (ndiv N (pdist (end_point s) (end_point p)) (nmul N v vs))))
         end).
      { destruct (String.eqb_spec m "0") as [->|M0].
        - destruct Hsegs as [[-> [_ L]]|[p [L1 [L2 L3]]]]; [simpl in E0; discriminate|].
          rewrite L3 in E0. injection E0 as <-. inv_bind H. inv_bind H. apply num_tok_ok in E0. destruct E0 as [sv [T5 V5]].
          rewrite L2 in E1. injection E1 as <-. injection H as <-. rewrite L1.
          exists a, sv. simpl. repeat split; auto.
        - destruct (String.eqb_spec m "1") as [->|M1]; [|discriminate]. injection E0 as <-.
          destruct Hsegs as [[-> [Ln L]]|[p [L1 [L2 L3]]]].
          + simpl in H. inv_bind H. apply num_tok_ok in E0. destruct E0 as [sv [T5 V5]]. injection H as <-.
            rewrite Ln. exists a, sv. simpl. repeat split; auto.
          + rewrite L3, L2 in H. cbn [bind] in H. inv_bind H. apply num_tok_ok in E0. destruct E0 as [sv [T5 V5]].
            injection H as <-. rewrite L1. exists a, sv. simpl. repeat split; auto. }
      destruct HV as [v [sv [T5 [V5 R]]]].
      destruct (split is_space line) as [|k0 [|k1 [|k2 [|k3 [|k4 [|k5 rest]]]]]] eqn:ES; try discriminate.
      simpl in M, T1, T2, T3, T4, T5.
      injection M as ->. injection T1 as ->. injection T2 as ->. injection T3 as ->. injection T4 as ->. injection T5 as ->.
      exists m, sx, sy, sz, spm, sv, rest, x, y, z, pm, v. rewrite ES. auto 10.
    - intros (m & sx & sy & sz & spm & sv & rest & x & y & z & pm & v & ES & V1 & V2 & V3 & V4 & V5 & EP & PM & ER & R).
      rewrite ES. unfold num_tok, at_. simpl nth_error. cbn [bind].
      rewrite V1, V2, V3, V4, V5. cbn [bind].
      destruct s as [et pm' ep er]. simpl in *. subst ep pm' er.
      destruct Hsegs as [[-> [Ln L]]|[p [L1 [L2 L3]]]].
      + rewrite Ln in R. destruct R as [-> ->]. reflexivity.
      + rewrite L1 in R. rewrite L3, L2. destruct R as [[-> ->]|[-> ->]]; reflexivity.
  Qed.

  Lemma nth_error_app_pred segs new k : predecessor (segs ++ new) (List.length segs + k) =
    match k with O => last_opt segs | S j => nth_error new j end.
  Proof.
    destruct k; simpl.
    - rewrite Nat.add_0_r. unfold last_opt, predecessor. destruct (List.length segs) eqn:E; [reflexivity|].
      apply nth_error_app1. lia.
    - rewrite Nat.add_succ_r. simpl. rewrite nth_error_app2 by lia. f_equal. lia.
  Qed.

  Definition seg_body (n : Z) (lines : list string) : list string := before_marker (firstn (Z.to_nat n) lines).

  Lemma seg_loop_iff ds vs : forall lines n segs out fin,
    load_segment_loop P ds vs n segs lines = Ok (out, fin) <->
    exists new, out = segs ++ new /\ List.length new = List.length (seg_body n lines) /\
      (forall i line s, nth_error (seg_body n lines) i = Some line -> nth_error new i = Some s ->
         segment_of_line P ds vs (predecessor out (List.length segs + i)) line s) /\
      fin = existsb has_end_marker (firstn (Z.to_nat n) lines).
  Proof.
    unfold seg_body. induction lines as [|line lines IH]; intros n segs out fin.
    - simpl. rewrite firstn_nil. simpl.
      assert (A : forall b : bool, (if b then Ok (segs, false) else Ok (segs, false)) = @Ok (list (seg N) * bool) (segs, false)) by (intros []; reflexivity).
      rewrite A. split.
      + intros H. injection H as <- <-. exists []. rewrite app_nil_r. repeat split; auto. intros [|i]; discriminate.
      + intros [new [-> [L [_ ->]]]]. destruct new; [|discriminate]. rewrite app_nil_r. reflexivity.
    - simpl load_segment_loop. destruct (Z.leb_spec n 0) as [Hn|Hn].
      + replace (Z.to_nat n) with 0%nat by lia. simpl. split.
        * intros H. injection H as <- <-. exists []. rewrite app_nil_r. repeat split; auto. intros [|i]; discriminate.
        * intros [new [-> [L [_ ->]]]]. destruct new; [|discriminate]. rewrite app_nil_r. reflexivity.
      + replace (Z.to_nat n) with (S (Z.to_nat (n - 1))) by lia. simpl firstn.
        cbn [before_marker existsb].
        destruct (has_end_marker line) eqn:EM.
        * simpl. split.
          -- intros H. injection H as <- <-. exists []. rewrite app_nil_r. repeat split; auto. intros [|i]; discriminate.
          -- intros [new [-> [L [_ ->]]]]. destruct new; [|discriminate]. rewrite app_nil_r. reflexivity.
        * simpl orb. split.
          -- intros H. inv_bind H. apply IH in H. destruct H as [new [-> [L [S F]]]].
             exists (a :: new). split; [rewrite <- app_assoc; reflexivity|]. split; [simpl; congruence|].
             split; [|exact F]. intros [|i] ln s Hl Hs; simpl in Hl, Hs.
             ++ injection Hl as <-. injection Hs as <-. rewrite Nat.add_0_r.
                apply seg_line_iff in E. rewrite <- app_assoc.
                pose proof (nth_error_app_pred segs ([a] ++ new) 0) as Q. rewrite Nat.add_0_r in Q. rewrite Q. exact E.
             ++ specialize (S i ln s Hl Hs). rewrite app_length in S. simpl in S.
                replace (List.length segs + 1 + i)%nat with (List.length segs + Datatypes.S i)%nat in S by lia. exact S.
          -- intros [new [-> [L [S F]]]]. destruct new as [|a new]; [discriminate|].
             assert (E : load_segment_line P ds vs segs line = Ok a).
             { apply seg_line_iff. specialize (S 0%nat line a eq_refl eq_refl).
               rewrite nth_error_app_pred in S. exact S. }
             rewrite E. cbn [bind]. apply IH. exists new. split; [rewrite <- app_assoc; reflexivity|].
             split; [simpl in L; congruence|]. split; [|exact F].
             intros i ln s Hl Hs. specialize (S (Datatypes.S i) ln s Hl Hs). rewrite app_length. simpl.
             replace (List.length segs + 1 + i)%nat with (List.length segs + Datatypes.S i)%nat by lia. exact S.
  Qed.

  Lemma load_segment_iff ds vs file segs fin :
    load_segment P ds vs file = Ok (segs, fin) <->
    exists h count rest n, file = h :: count :: rest /\ stoi P count = Some n /\
      let announced := firstn (Z.to_nat (n mod 2 ^ 32)) (tl rest) in
      let body := before_marker announced in
      List.length segs = List.length body /\
      (forall i line s, nth_error body i = Some line -> nth_error segs i = Some s ->
         segment_of_line P ds vs (predecessor segs i) line s) /\
      fin = existsb has_end_marker announced.
  Proof.
    unfold load_segment. split.
    - destruct file as [|h [|c rest]]; try discriminate. destruct (stoi P c) as [n|] eqn:En; [|discriminate].
      intros H. apply seg_loop_iff in H. destruct H as [new [-> [L [S F]]]].
      exists h, c, rest, n. simpl in S |- *. auto 8.
    - intros [h [c [rest [n [-> [-> [L [S F]]]]]]]]. apply seg_loop_iff. exists segs. simpl. auto.
  Qed.

  (** *** Event series *)
  Lemma rot_part_iff st sx sy sz rest r :
    (if Nat.eqb (List.length (st :: sx :: sy :: sz :: rest)) 9 then
         do a <- num_tok P (st :: sx :: sy :: sz :: rest) 4;
         do b <- num_tok P (st :: sx :: sy :: sz :: rest) 5;
         do c <- num_tok P (st :: sx :: sy :: sz :: rest) 6;
         do d <- num_tok P (st :: sx :: sy :: sz :: rest) 7;
         Ok (Some (mkq a b c d))
       else Ok None) = Ok r <->
    (if Nat.eqb (List.length rest) 5 then
         exists sa sb sc sd a b c d tail, rest = sa :: sb :: sc :: sd :: tail /\
         stod P sa = Some a /\ stod P sb = Some b /\ stod P sc = Some c /\ stod P sd = Some d /\
         r = Some (mkq a b c d)
       else r = None).
  Proof.
    assert (Q : Nat.eqb (List.length (st :: sx :: sy :: sz :: rest)) 9 = Nat.eqb (List.length rest) 5).
    { simpl. reflexivity. }
    rewrite Q. destruct (Nat.eqb_spec (List.length rest) 5) as [L|L].
    - split.
      + intros H. inv_bind H. inv_bind H. inv_bind H. inv_bind H. injection H as <-.
        rewrite num_tok_ok in E, E0, E1, E2.
        destruct rest as [|ka [|kb [|kc [|kd tail]]]]; try discriminate.
        simpl in E, E0, E1, E2.
        destruct E as [s0 [Q0 W0]], E0 as [s1 [Q1 W1]], E1 as [s2 [Q2 W2]], E2 as [s3 [Q3 W3]].
        injection Q0 as <-. injection Q1 as <-. injection Q2 as <-. injection Q3 as <-.
        exists ka, kb, kc, kd, a, a0, a1, a2, tail. auto 10.
      + intros (sa & sb & sc & sd & a & b & c & d & tail & -> & W0 & W1 & W2 & W3 & ->).
        unfold num_tok, at_. simpl. rewrite W0, W1, W2, W3. reflexivity.
    - split; intros H; [injection H as <-; reflexivity|subst; reflexivity].
  Qed.

  Lemma event_line_iff ds lp line s lp' f :
    load_event_line P ds lp line = Ok (s, lp', f) <->
    event_of_line P ds lp line s /\ power_column P line lp' /\
    f = match end_rotation s with Some _ => true | None => false end.
  Proof.
    unfold load_event_line. split.
    - intros H. inv_bind H. inv_bind H. inv_bind H. inv_bind H. inv_bind H. inv_bind H.
      rewrite num_tok_ok in E, E0, E1, E2.
      destruct E as [st [T0 V0]], E0 as [sx [T1 V1]], E1 as [sy [T2 V2]], E2 as [sz [T3 V3]].
      destruct (stod P a4) as [pw|] eqn:EL; [|discriminate]. injection H as <- <- <-.
      apply back_inv in E4. destruct E4 as [l EB].
      split; [|split; [exists l, a4; auto|reflexivity]].
      destruct (split is_space_comma line) as [|k0 [|k1 [|k2 [|k3 rest]]]] eqn:ES; try discriminate.
      simpl in T0, T1, T2, T3. injection T0 as ->. injection T1 as ->. injection T2 as ->. injection T3 as ->.
      apply rot_part_iff in E3.
      exists st, sx, sy, sz, rest, a, a0, a1, a2. rewrite ES. auto 12.
    - intros [(st & sx & sy & sz & rest & t & x & y & z & ES & V0 & V1 & V2 & V3 & ET & EP & PM & ER) [[l [tok [EL VL]]] Hf]].
      destruct s as [et pm ep er]. simpl in ET, EP, PM, ER, Hf. subst et pm ep.
      apply (rot_part_iff st sx sy sz) in ER.
      assert (B : back (split is_space_comma line) = Ok tok) by (rewrite EL; apply back_app).
      rewrite ES in *. rewrite ER. unfold num_tok. unfold at_ at 1 2 3 4. simpl nth_error.
      cbn [bind]. rewrite V0, V1, V2, V3. cbn [bind]. rewrite B. cbn [bind]. rewrite VL. subst f. reflexivity.
  Qed.

  Definition nonblank (line : string) : bool := negb (String.eqb line "").
  Definition event_body (file : list string) : list string := before_marker (filter nonblank file).
  Definition has_rotation (s : seg N) : bool := match end_rotation s with Some _ => true | None => false end.

  Lemma pred_some {A} (l : list A) i x (Q : A -> Prop) (R1 R2 : Prop) : nth_error l (S i) = Some x ->
    match nth_error l i with Some a => Q a | None => R1 end ->
    match nth_error l i with Some a => Q a | None => R2 end.
  Proof.
    intros H. destruct (nth_error l i) eqn:E; [auto|]. apply nth_error_None in E.
    assert (S i < List.length l)%nat by (apply nth_error_Some; congruence). lia.
  Qed.

  Lemma event_loop_iff ds : forall lines lp segs five out fin five',
    load_event_loop P ds lp segs five lines = Ok (out, fin, five') <->
    exists new, out = segs ++ new /\ List.length new = List.length (event_body lines) /\
      (forall i line s, nth_error (event_body lines) i = Some line -> nth_error new i = Some s ->
         (exists pw, power_column P line pw) /\
         exists pw, match predecessor (event_body lines) i with None => pw = lp | Some l => power_column P l pw end /\
         event_of_line P ds pw line s) /\
      fin = existsb has_end_marker lines /\
      five' = orb five (existsb has_rotation new).
  Proof.
    unfold event_body. induction lines as [|line lines IH]; intros lp segs five out fin five'.
    - simpl. split.
      + intros H. injection H as <- <- <-. exists []. rewrite app_nil_r, orb_false_r. repeat split; auto; destruct i; discriminate.
      + intros [new [-> [L [_ [-> ->]]]]]. destruct new; [|discriminate]. rewrite app_nil_r, orb_false_r. reflexivity.
    - simpl load_event_loop.
      destruct (String.eqb_spec line "") as [->|NB].
      + change (filter nonblank (""%string :: lines)) with (filter nonblank lines).
        rewrite IH. simpl existsb. reflexivity.
      + assert (FE : filter nonblank (line :: lines) = line :: filter nonblank lines).
        { simpl. unfold nonblank at 1. destruct (String.eqb_spec line ""); [contradiction|reflexivity]. }
        rewrite FE. clear FE. cbn [before_marker existsb]. destruct (has_end_marker line) eqn:EM.
        * simpl. split.
          -- intros H. injection H as <- <- <-. exists []. rewrite app_nil_r, orb_false_r. repeat split; auto; destruct i; discriminate.
          -- intros [new [-> [L [_ [-> ->]]]]]. destruct new; [|discriminate]. rewrite app_nil_r, orb_false_r. reflexivity.
        * simpl orb at 1. split.
          -- intros H. inv_bind H. destruct a as [[s lp'] f]. apply event_line_iff in E. destruct E as [HE [HP Hf]].
             apply IH in H. destruct H as [new [-> [L [S [F V]]]]].
             exists (s :: new). split; [rewrite <- app_assoc; reflexivity|]. split; [simpl; congruence|].
             split; [|split; [exact F|]].
             ++ intros [|i] ln s' Hl Hs; simpl in Hl, Hs.
                ** injection Hl as <-. injection Hs as <-. split; [eauto|]. exists lp. simpl. auto.
                ** destruct (S i ln s' Hl Hs) as [S1 [pw [S2 S3]]]. split; [exact S1|].
                   exists pw. split; [|exact S3]. destruct i; simpl in S2 |- *; [subst pw; exact HP|].
                   exact (pred_some _ _ _ _ _ _ Hl S2).
             ++ rewrite V. simpl. unfold has_rotation at 2. rewrite Hf. rewrite <- orb_assoc. reflexivity.
          -- intros [new [-> [L [S [F V]]]]]. destruct new as [|s new]; [discriminate|].
             destruct (S 0%nat line s eq_refl eq_refl) as [[pw HP] [pw' [S2 HE]]]. simpl in S2. subst pw'.
             rewrite (proj2 (event_line_iff ds lp line s pw (has_rotation s))); [|auto].
             cbn [bind]. apply IH. exists new. split; [rewrite <- app_assoc; reflexivity|].
             split; [simpl in L; congruence|]. split; [|split; [exact F|]].
             ++ intros i ln s' Hl Hs. destruct (S (Datatypes.S i) ln s' Hl Hs) as [S1 [pw'' [S2' S3]]].
                split; [exact S1|]. destruct i; simpl in S2' |- *.
                ** exists pw''. split; [|exact S3].
                   destruct HP as [l1 [t1 [P1 Q1]]], S2' as [l2 [t2 [P2 Q2]]].
                   rewrite P1 in P2. apply app_inj_tail in P2. destruct P2 as [_ <-]. congruence.
                ** exists pw''. split; [exact (pred_some _ _ _ _ _ _ Hl S2')|exact S3].
             ++ rewrite V. simpl. rewrite orb_assoc. reflexivity.
  Qed.

  Lemma load_event_iff ds file segs fin five :
    load_event_series P ds file = Ok (segs, fin, five) <->
    let body := before_marker (filter (fun line => negb (String.eqb line "")) file) in
      List.length segs = List.length body /\
      (forall i line s, nth_error body i = Some line -> nth_error segs i = Some s ->
         (exists pw, power_column P line pw) /\
         exists pw, match predecessor body i with None => pw = nofZ N 0 | Some line' => power_column P line' pw end /\
         event_of_line P ds pw line s) /\
      fin = existsb has_end_marker file /\
      five = existsb (fun s => match end_rotation s with Some _ => true | None => false end) segs.
  Proof.
    unfold load_event_series. rewrite event_loop_iff. split.
    - intros [new [-> [L [S [F V]]]]]. auto.
    - intros [L [S [F V]]]. exists segs. auto.
  Qed.
End Generic.
