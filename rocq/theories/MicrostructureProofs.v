(** MicrostructureProofs.v -- C30. *)
From Coq Require Import Reals ZArith QArith Bool List String Lia Lra Permutation Floats.
From Verif Require Import Base BaseFacts InputModel EnsembleProofs MicrostructureModel MicrostructureSpec.
Import ListNotations.
Local Open Scope string_scope.

Lemma fold_last (p : nat -> bool) s : forall l acc, (forall i, In i l -> (p i = true <-> i = s)) -> fold_left (fun acc i => if p i then i else acc) l acc = if existsb (Nat.eqb s) l then s else acc.
Proof.
  induction l as [|a l IH]; intros acc H; [reflexivity|]. cbn [fold_left existsb]. rewrite IH by (intros i I; apply H; right; exact I).
  assert (A := H a (or_introl eq_refl)). destruct (Nat.eqb_spec s a) as [->|NE]; cbn [orb].
  - replace (p a) with true by (symmetry; apply A; reflexivity). destruct (existsb (Nat.eqb a) l); reflexivity.
  - destruct (p a) eqn:E; [exfalso; apply NE; symmetry; apply A; reflexivity|]. reflexivity.
Qed.
Lemma combine_seq_map {A B C} (f : nat -> A) (g : nat -> B) (h : A * B -> C) n : forall s, map h (combine (map f (seq s n)) (map g (seq s n))) = map (fun q => h (f q, g q)) (seq s n).
Proof. induction n as [|n IH]; intros s; [reflexivity|]. cbn [seq map combine]. f_equal. apply IH. Qed.
Lemma concat_flat {A B} (f : A -> list B) l x : In x (List.concat (map f l)) <-> exists a, In a l /\ In x (f a).
Proof. rewrite <- flat_map_concat_map. apply in_flat_map. Qed.

Section Cells.
  Context {N : Num}.
  Lemma support_ok n (c : cell N) sigma prev q : interpolating n c sigma -> (q < n)%nat -> support_point c prev q = sigma q.
  Proof.
    intros (LD & LP & H) Q. destruct (H q Q) as [S I]. unfold support_point. rewrite LD.
    rewrite (fold_last (fun i => nltb N (nopp N (ndiv N (nofZ N 1) (nofZ N 1000000000000))) (nsub N (c_value c i q) (nofZ N 1))) (sigma q)).
    - replace (existsb (Nat.eqb (sigma q)) (seq 0 n)) with true; [reflexivity|]. symmetry. apply existsb_exists. exists (sigma q). split; [apply in_seq; lia|apply Nat.eqb_refl].
    - intros i J. apply in_seq in J. apply I. lia.
  Qed.
  (** The lines of a cell, point by point. *)
  Definition at_point (old new : nat -> N) (dt : N) (c : cell N) (sigma : nat -> nat) (q : nat) : list (line N) :=
    match nth_error (c_points c) q, nth_error (c_dofs c) (sigma q) with
    | Some x, Some dof => if crosses (c_liquidus c) (old dof) (new dof) then [line_of old new dt c q dof x] else []
    | _, _ => []
    end.
  Lemma seq_points {A} (l : list A) d : l = map (fun q => nth q l d) (seq 0 (List.length l)).
  Proof.
    assert (G : forall l' (pre : list A), (pre ++ l')%list = l -> l' = map (fun q => nth q l d) (seq (List.length pre) (List.length l'))).
    { induction l' as [|a l' IH]; intros pre E; [reflexivity|]. cbn [List.length seq map]. f_equal.
      - rewrite <- E, app_nth2, Nat.sub_diag by lia. reflexivity.
      - specialize (IH (pre ++ [a])%list). rewrite app_length in IH. simpl in IH. rewrite Nat.add_1_r in IH. apply IH. rewrite <- app_assoc. exact E. }
    apply (G l []). reflexivity.
  Qed.
  Lemma one_cell_ok n old new dt q2s (c : cell N) sigma : List.length q2s = n -> (c_selected c = true -> interpolating n c sigma) ->
    List.length (fst (one_cell old new dt q2s c)) = n /\
    snd (one_cell old new dt q2s c) = if c_selected c then List.concat (map (at_point old new dt c sigma) (seq 0 n)) else [].
  Proof.
    intros LQ HI. unfold one_cell. destruct (c_selected c) eqn:SEL; cbn [negb]; [|auto]. specialize (HI eq_refl).
    destruct (existsb _ (c_dofs c)) eqn:EX; cbn [negb].
    - destruct HI as (LD & LP & H). cbn [fst snd].
      assert (Q2 : map (fun '(q, prev) => support_point c prev q) (combine (seq 0 (List.length (c_points c))) q2s) = map sigma (seq 0 n)).
      { rewrite LP. rewrite (seq_points q2s 0%nat), LQ. rewrite <- (map_id (seq 0 n)) at 1. rewrite (combine_seq_map (fun x => x) (fun q => nth q q2s 0%nat)).
        apply map_ext_in. intros q J. apply in_seq in J. apply (support_ok n); [split; auto|lia]. }
      rewrite Q2. split; [rewrite map_length, seq_length; reflexivity|]. f_equal. destruct (c_points c) as [|x0 xs] eqn:P.
      + simpl in LP. rewrite <- LP. reflexivity.
      + rewrite <- P in *. rewrite (seq_points (c_points c) x0) at 2. rewrite LP. rewrite <- (map_id (seq 0 n)) at 1. 
        assert (CC : combine (map (fun x => x) (seq 0 n)) (map (fun q => nth q (c_points c) x0) (seq 0 n)) = map (fun q => (q, nth q (c_points c) x0)) (seq 0 n)).
        { rewrite <- (map_id (combine _ _)). rewrite (combine_seq_map (fun x => x) (fun q => nth q (c_points c) x0) (fun x => x)). reflexivity. }
        rewrite CC. rewrite (combine_seq_map (fun q => (q, nth q (c_points c) x0)) sigma). apply map_ext_in. intros q J. apply in_seq in J. unfold at_point.
        rewrite (nth_error_nth' (c_points c) x0) by lia. destruct (nth_error (c_dofs c) (sigma q)) as [dof|]; reflexivity.
    - split; [exact LQ|]. cbn [snd]. symmetry. apply concat_nil_Forall. apply Forall_forall. intros l I. apply in_map_iff in I. destruct I as (q & <- & _). unfold at_point.
      destruct (nth_error (c_points c) q); [|reflexivity]. destruct (nth_error (c_dofs c) (sigma q)) as [dof|] eqn:D; [|reflexivity].
      destruct (crosses (c_liquidus c) (old dof) (new dof)) eqn:C; [|reflexivity]. exfalso.
      assert (X : existsb (fun dof => crosses (c_liquidus c) (old dof) (new dof)) (c_dofs c) = true) by (apply existsb_exists; exists dof; split; [apply nth_error_In with (sigma q); exact D|exact C]).
      congruence.
  Qed.
  Lemma all_cells_ok n old new dt : forall (cs : list (cell N)) (sigmas : list (nat -> nat)) q2s, List.length q2s = n -> Forall2 (fun c sigma => c_selected c = true -> interpolating n c sigma) cs sigmas ->
    all_cells old new dt q2s cs = List.concat (map (fun '(c, sigma) => if c_selected c then List.concat (map (at_point old new dt c sigma) (seq 0 n)) else []) (combine cs sigmas)).
  Proof.
    induction cs as [|c cs IH]; intros sigmas q2s LQ F; inversion F as [|? sigma ? sigmas' HI F']; subst; [reflexivity|]. cbn [all_cells combine map List.concat].
    destruct (one_cell_ok _ old new dt q2s c sigma eq_refl HI) as [L E]. destruct (one_cell old new dt q2s c) as [q2s' ls]. cbn [fst snd] in L, E. rewrite E. f_equal. apply IH; auto.
  Qed.
  Lemma at_point_in n old new dt (c : cell N) sigma l : interpolating n c sigma -> (In l (List.concat (map (at_point old new dt c sigma) (seq 0 n))) <-> solidifies old new dt c sigma l).
  Proof.
    intros (LD & LP & H). rewrite concat_flat. unfold solidifies, at_point. split.
    - intros (q & J & I). destruct (nth_error (c_points c) q) as [x|] eqn:X; [|contradiction]. destruct (nth_error (c_dofs c) (sigma q)) as [dof|] eqn:D; [|contradiction].
      destruct (crosses (c_liquidus c) (old dof) (new dof)) eqn:C; [|contradiction]. destruct I as [<-|[]]. unfold crosses in C. apply andb_true_iff in C. destruct C. exists q, dof, x. auto.
    - intros (q & dof & x & X & D & C1 & C2 & ->). exists q. split; [apply in_seq; split; [lia|]; rewrite <- LP; apply nth_error_Some; congruence|]. rewrite X, D. unfold crosses. rewrite C1, C2. left. reflexivity.
  Qed.
  Lemma recorded_iff n old new dt (cs : list (cell N)) sigma : (forall c, In c cs -> c_selected c = true -> interpolating n c sigma) ->
    forall l, In l (compute_G_and_R n old new dt cs) <-> exists c, In c cs /\ c_selected c = true /\ solidifies old new dt c sigma l.
  Proof.
    intros H l. unfold compute_G_and_R. rewrite (all_cells_ok n old new dt cs (map (fun _ => sigma) cs)); [|apply repeat_length|].
    - rewrite concat_flat. split.
      + intros ([c s] & I & L). assert (s = sigma) by (apply in_combine_r, in_map_iff in I; destruct I as (? & <- & _); reflexivity). subst s. apply in_combine_l in I.
        destruct (c_selected c) eqn:SEL; [|contradiction]. exists c. split; [exact I|]. split; [exact SEL|]. apply (at_point_in n); auto.
      + intros (c & I & SEL & L). exists (c, sigma). split.
        * clear - I. induction cs as [|a cs IH]; [contradiction|]. destruct I as [<-|I]; [left; reflexivity|right; apply IH, I].
        * rewrite SEL. apply (at_point_in n); auto.
    - clear - H. induction cs as [|a cs IH]; constructor; [intros SEL; apply H; [left; reflexivity|exact SEL]|]. apply IH. intros c I. apply H. right. exact I.
  Qed.
  (** As many lines as degrees of freedom that solidify. *)
  Lemma filter_length_ext {A} (p q : A -> bool) l : (forall x, In x l -> p x = q x) -> List.length (filter p l) = List.length (filter q l).
  Proof. intros H. f_equal. induction l as [|a l IH]; [reflexivity|]. simpl. rewrite (H a) by (left; reflexivity). rewrite IH; [reflexivity|]. intros x I. apply H. right. exact I. Qed.
  Lemma filter_map_length {A B} (p : B -> bool) (f : A -> B) l : List.length (filter p (map f l)) = List.length (filter (fun x => p (f x)) l).
  Proof. induction l as [|a l IH]; [reflexivity|]. simpl. destruct (p (f a)); simpl; rewrite IH; reflexivity. Qed.
  Lemma perm_filter {A} (p : A -> bool) l l' : Permutation l l' -> List.length (filter p l) = List.length (filter p l').
  Proof. induction 1 as [|x l l' P IH|x y l|l l' l'' P1 IH1 P2 IH2]; simpl; [reflexivity|destruct (p x); simpl; congruence|destruct (p x), (p y); reflexivity|congruence]. Qed.
  Lemma concat_count {A B} (f : A -> list B) (p : A -> bool) l : (forall a, In a l -> List.length (f a) = if p a then 1%nat else 0%nat) -> List.length (List.concat (map f l)) = List.length (filter p l).
  Proof. induction l as [|a l IH]; intros H; [reflexivity|]. cbn [map List.concat filter]. rewrite app_length, (H a) by (left; reflexivity). rewrite IH by (intros x I; apply H; right; exact I). destruct (p a); reflexivity. Qed.
  Lemma count_ok n old new dt (c : cell N) sigma : c_selected c = true -> interpolating n c sigma -> (forall q q', (q < n)%nat -> (q' < n)%nat -> sigma q = sigma q' -> q = q') ->
    List.length (compute_G_and_R n old new dt [c]) = List.length (filter (fun dof => nltb N (c_liquidus c) (old dof) && nleb N (new dof) (c_liquidus c)) (c_dofs c)).
  Proof.
    intros SEL HI INJ. unfold compute_G_and_R. rewrite (all_cells_ok n old new dt [c] [sigma]); [|apply repeat_length|constructor; auto].
    cbn [combine map List.concat]. rewrite SEL, app_nil_r. destruct HI as (LD & LP & H).
    set (p := fun s => match nth_error (c_dofs c) s with Some dof => crosses (c_liquidus c) (old dof) (new dof) | None => false end).
    rewrite (concat_count _ (fun q => p (sigma q))).
    - rewrite <- (filter_map_length p sigma). rewrite (perm_filter p _ (seq 0 n)).
      + rewrite (seq_points (c_dofs c) 0%nat) at 1. rewrite filter_map_length, LD.
        apply filter_length_ext. intros q J. apply in_seq in J. unfold p. rewrite (nth_error_nth' (c_dofs c) 0%nat) by lia. reflexivity.
      + apply NoDup_Permutation_bis.
        * assert (G : forall l, (forall x, In x l -> (x < n)%nat) -> NoDup l -> NoDup (map sigma l)).
          { induction l as [|a l IH]; intros B ND; [constructor|]. inversion ND; subst. cbn [map]. constructor; [|apply IH; [intros x I; apply B; right; exact I|assumption]].
            intros I. apply in_map_iff in I. destruct I as (b & E & I). apply INJ in E; [subst; contradiction|apply B; right; exact I|apply B; left; reflexivity]. }
          apply G; [intros x I; apply in_seq in I; lia|apply seq_NoDup].
        * rewrite map_length. auto.
        * intros s I. apply in_map_iff in I. destruct I as (q & <- & J). apply in_seq in J. apply in_seq. destruct (H q ltac:(lia)). lia.
    - intros q J. apply in_seq in J. unfold at_point, p. destruct (nth_error (c_points c) q) eqn:X; [|apply nth_error_None in X; lia].
      destruct (nth_error (c_dofs c) (sigma q)); [|reflexivity]. destruct (crosses _ _ _); reflexivity.
  Qed.
End Cells.

(** ** Reals: the gradient, the rate and the velocity *)
Section Reals.
  Local Open Scope R_scope.
  Lemma norm_ok (g : pt RNum) : 0 <= norm_G g /\ norm_G g * norm_G g = px g * px g + py g * py g + pz g * pz g.
  Proof.
    unfold norm_G. cbn [nsqrt nadd nmul nofZ RNum]. set (s := (0 + px g * px g + py g * py g + pz g * pz g)%R). assert (S : 0 <= s) by (unfold s; nra).
    split; [apply sqrt_pos|]. change ((IZR 0 + px g * px g + py g * py g + pz g * pz g)%R) with s. rewrite sqrt_sqrt by exact S. unfold s. simpl. ring.
  Qed.
  Lemma rate_wrong (old new dt : R) : dt <> 0 -> (cooling_rate (N := RNum) old new dt = (old - new) / dt <-> old = 0 \/ dt = 1).
  Proof.
    intros D. unfold cooling_rate. cbn [nsub ndiv RNum]. split.
    - intros H. assert (E : old * (dt - 1) = 0). { assert (X : old * dt - new = old - new); [|nra]. replace (old * dt - new) with ((old - new / dt) * dt) by (field; exact D). rewrite H. field. exact D. }
      apply Rmult_integral in E. destruct E; [left; assumption|right; lra].
    - intros [-> | ->]; [change (0 - new / dt = (0 - new) / dt); field; exact D|change (old - new / 1 = (old - new) / 1); field].
  Qed.
  (** Temperatures in kelvin and a step below 1 s: the recorded rate is negative for a small drop. *)
  Lemma rate_negative (old new dt : R) : 0 < dt -> dt * old < new -> cooling_rate (N := RNum) old new dt < 0.
  Proof.
    intros D H. unfold cooling_rate. cbn [nsub ndiv RNum]. apply (Rmult_lt_reg_r dt); [exact D|]. unfold Rdiv. rewrite Rmult_minus_distr_r, Rmult_assoc, Rinv_l by lra. lra.
  Qed.
End Reals.

(** ** Files *)
Section Files.
  Context {L : Type}.
  Lemma append_length (a b : string) : String.length (a ++ b) = (String.length a + String.length b)%nat.
  Proof. induction a as [|c a IH]; simpl; auto. Qed.
  Lemma append_inj_r (a b s : string) : a ++ s = b ++ s -> a = b.
  Proof.
    revert b. induction a as [|c a IH]; intros b H; destruct b as [|d b]; auto.
    - exfalso. apply (f_equal String.length) in H. rewrite !append_length in H. simpl in H. lia.
    - exfalso. apply (f_equal String.length) in H. rewrite !append_length in H. simpl in H. lia.
    - simpl in H. injection H as -> H. f_equal. apply IH, H.
  Qed.
  Lemma local_inj prefix r r' : local_name prefix r = local_name prefix r' -> r = r'.
  Proof. unfold local_name. intros H. apply append_inj_l in H. injection H as H. apply append_inj_r in H. apply to_string_inj, H. Qed.
  Lemma local_global prefix r : local_name prefix r <> global_name prefix.
  Proof. unfold local_name, global_name. intros H. apply append_inj_l in H. discriminate. Qed.
  Lemma wf_same (f : @fs L) n c : write_file f n c n = c.
  Proof. unfold write_file. rewrite String.eqb_refl. reflexivity. Qed.
  Lemma wf_other (f : @fs L) n c m : m <> n -> write_file f n c m = f m.
  Proof. intros H. unfold write_file. destruct (String.eqb_spec m n); [contradiction|reflexivity]. Qed.
  Lemma concat_go prefix : forall n s (f : @fs L),
    let f' := fold_left (concatenate_one prefix) (seq s n) f in
    read_or_empty f' (global_name prefix) = (read_or_empty f (global_name prefix) ++ List.concat (map (fun r => read_or_empty f (local_name prefix r)) (seq s n)))%list /\
    ((0 < n)%nat -> f' (global_name prefix) <> None) /\
    (forall r, (s <= r < s + n)%nat -> f' (local_name prefix r) = None) /\
    (forall name, name <> global_name prefix -> (forall r, (s <= r < s + n)%nat -> name <> local_name prefix r) -> f' name = f name).
  Proof.
    induction n as [|n IH]; intros s f; cbn [seq fold_left map List.concat].
    - rewrite app_nil_r. repeat split; auto; lia.
    - destruct (IH (S s) (concatenate_one prefix f s)) as (A & B & C & D). set (f' := fold_left (concatenate_one prefix) (seq (S s) n) (concatenate_one prefix f s)) in *.
      assert (G1 : concatenate_one prefix f s (global_name prefix) = Some (read_or_empty f (global_name prefix) ++ read_or_empty f (local_name prefix s))%list).
      { unfold concatenate_one. cbv zeta. rewrite wf_other by (intros E; apply (local_global prefix s); auto). apply wf_same. }
      assert (O1 : forall name, name <> global_name prefix -> name <> local_name prefix s -> concatenate_one prefix f s name = f name).
      { intros name H1 H2. unfold concatenate_one. cbv zeta. rewrite wf_other by exact H2. apply wf_other, H1. }
      split; [|split; [|split]].
      + rewrite A. unfold read_or_empty at 1. rewrite G1. rewrite <- app_assoc. f_equal. f_equal. f_equal. apply map_ext_in. intros r J. apply in_seq in J. unfold read_or_empty.
        rewrite O1; [reflexivity|apply local_global|]. intros E. apply local_inj in E. lia.
      + intros _. destruct n as [|n']; [unfold f'; simpl; rewrite G1; discriminate|apply B; lia].
      + intros r J. destruct (Nat.eq_dec r s) as [->|NE]; [|apply C; lia]. rewrite D; [unfold concatenate_one; apply wf_same|apply local_global|]. intros r' J' E. apply local_inj in E. lia.
      + intros name H1 H2. rewrite D; [apply O1; [exact H1|apply H2; lia]|exact H1|]. intros r J. apply H2. lia.
  Qed.
  Lemma concatenate_ok prefix n (f : @fs L) : (0 < n)%nat ->
    concatenate prefix n f (global_name prefix) = Some (List.concat (map (fun r => read_or_empty f (local_name prefix r)) (seq 0 n))) /\
    (forall r, (r < n)%nat -> concatenate prefix n f (local_name prefix r) = None) /\
    (forall name, name <> global_name prefix -> (forall r, (r < n)%nat -> name <> local_name prefix r) -> concatenate prefix n f name = f name).
  Proof.
    intros N0. unfold concatenate. destruct (concat_go prefix n 0 (write_file f (global_name prefix) None)) as (A & B & C & D). split; [|split].
    - set (f' := fold_left (concatenate_one prefix) (seq 0 n) (write_file f (global_name prefix) None)) in *. specialize (B N0). unfold read_or_empty in A at 1. destruct (f' (global_name prefix)) as [c|]; [|contradiction].
      f_equal. rewrite A. unfold read_or_empty at 1. rewrite wf_same. cbn [app]. f_equal. apply map_ext. intros r. unfold read_or_empty. rewrite wf_other by apply local_global. reflexivity.
    - intros r J. apply C. lia.
    - intros name H1 H2. rewrite D; [apply wf_other, H1|exact H1|intros r J; apply H2; lia].
  Qed.
End Files.

Lemma run_recorded_iff : forall (N : Num) n (ps : list (pass N)) sigma, (forall p c, In p ps -> In c (p_cells p) -> c_selected c = true -> interpolating n c sigma) ->
  forall l, In l (rank_file n ps) <-> exists p c, In p ps /\ In c (p_cells p) /\ c_selected c = true /\ solidifies (p_before p) (p_after p) (p_dt p) c sigma l.
Proof.
  intros N n ps sigma H l. unfold rank_file. rewrite in_concat. split.
  - intros [x [Hx Hl]]. apply in_map_iff in Hx. destruct Hx as [p [Hp Hin]]. subst x.
    apply (@recorded_iff N n _ _ _ _ sigma (fun c Hc => H p c Hin Hc)) in Hl. destruct Hl as [c Hc]. exists p, c. tauto.
  - intros [p [c [Hin Hc]]]. exists (compute_G_and_R n (p_before p) (p_after p) (p_dt p) (p_cells p)). split.
    + apply in_map_iff. exists p. auto.
    + apply (@recorded_iff N n _ _ _ _ sigma (fun c Hc => H p c Hin Hc)). exists c. tauto.
Qed.

Lemma gradient_fold (new : nat -> R) (c : cell RNum) q : forall (ds : list nat) s (g : pt RNum) (comp : pt RNum -> R), In comp [@px RNum; @py RNum; @pz RNum] ->
  comp (fold_left (fun (g : pt RNum) '(i, dof) => mkpt (N := RNum) (px g + new dof * px (c_grad c i q))%R (py g + new dof * py (c_grad c i q))%R (pz g + new dof * pz (c_grad c i q))%R)
    (combine (seq s (List.length ds)) ds) g)
  = (comp g + rsum (map (fun i => (new (nth (i - s) ds 0%nat) * comp (c_grad c i q))%R) (seq s (List.length ds))))%R.
Proof.
  induction ds as [|d ds IH]; intros s g comp Hc.
  - simpl. unfold rsum. simpl. symmetry. apply Rplus_0_r.
  - cbn [List.length seq combine fold_left map]. rewrite (IH (S s) _ comp Hc). unfold rsum. cbn [fold_right].
    rewrite Nat.sub_diag. cbn [nth].
    assert (E : map (fun i => (new (nth (i - S s) ds 0%nat) * comp (c_grad c i q))%R) (seq (S s) (List.length ds)) =
                map (fun i => (new (nth (i - s) (d :: ds) 0%nat) * comp (c_grad c i q))%R) (seq (S s) (List.length ds))).
    { apply map_ext_in. intros i Hi. apply in_seq in Hi. replace (i - s)%nat with (S (i - S s)) by lia. reflexivity. }
    rewrite E. destruct Hc as [<-|[<-|[<-|[]]]]; simpl; ring.
Qed.
Lemma gradient_ok (new : nat -> R) (c : cell RNum) q : is_gradient new c q (gradient (N := RNum) new c q).
Proof.
  intros comp Hc. unfold gradient. rewrite (gradient_fold new c q (c_dofs c) 0 _ comp Hc).
  assert (Z : comp (mkpt (N := RNum) (IZR 0) (IZR 0) (IZR 0)) = 0%R) by (destruct Hc as [<-|[<-|[<-|[]]]]; reflexivity).
  simpl in *. rewrite Z, Rplus_0_l. f_equal. apply map_ext. intros i. rewrite Nat.sub_0_r. reflexivity.
Qed.
