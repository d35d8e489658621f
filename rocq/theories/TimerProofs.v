(** TimerProofs.v -- proofs for C50. *)
From Coq Require Import ZArith Bool List Lia.
From Verif Require Import TimerModel TimerSpec.
Import ListNotations.
Local Open Scope Z_scope.

Lemma cpu_eq a b : wall a = wall b -> user a = user b -> system a = system b -> a = b.
Proof. destruct a, b; cbn; intros; congruence. Qed.
Lemma total_app a b : total (a ++ b) = cadd (total a) (total b).
Proof.
  assert (forall x y : list Z, fold_right Z.add 0 (x ++ y) = fold_right Z.add 0 x + fold_right Z.add 0 y) as F.
  { induction x as [|z x IH]; intros y; cbn; [lia|]. rewrite IH. lia. }
  apply cpu_eq; cbn; rewrite map_app; apply F.
Qed.
Lemma total_one x : total [x] = x.
Proof. apply cpu_eq; cbn; lia. Qed.

Lemma last_start_snoc h c : last_start (h ++ [c]) = match c with Start now => now | _ => last_start h end.
Proof. unfold last_start. rewrite rev_app_distr. cbn. destruct c; reflexivity. Qed.
Lemma history_snoc h c : history (h ++ [c]) = do_call (history h) c.
Proof. unfold history. rewrite fold_left_app. reflexivity. Qed.
Lemma history_start h : t_start (history h) = last_start h.
Proof.
  induction h as [|c h IH] using rev_ind; [reflexivity|]. rewrite history_snoc, last_start_snoc. destruct c; cbn; congruence.
Qed.
Lemma flat_map_ext_in {A B} (f g : A -> list B) l : (forall a, In a l -> f a = g a) -> flat_map f l = flat_map g l.
Proof. induction l as [|a l IH]; intros H; [reflexivity|]. cbn. rewrite (H a (or_introl eq_refl)), IH; [reflexivity|]. intros; apply H; right; assumption. Qed.
Lemma measured_snoc h c : measured (h ++ [c]) =
  match c with Start _ => measured h | Stop now => measured h ++ [csub now (last_start h)] | Reset => [] end.
Proof.
  unfold measured. rewrite app_length. cbn [length]. rewrite Nat.add_1_r, seq_S, flat_map_app. cbn [plus flat_map].
  rewrite nth_error_app2 by lia. rewrite Nat.sub_diag. cbn [nth_error]. rewrite firstn_app, firstn_all, Nat.sub_diag. cbn [firstn]. rewrite !app_nil_r.
  assert (forall p, In p (seq 0 (length h)) -> nth_error (h ++ [c]) p = nth_error h p /\ skipn p (h ++ [c]) = skipn p h ++ [c] /\ firstn p (h ++ [c]) = firstn p h) as P.
  { intros p Hp. apply in_seq in Hp. split; [apply nth_error_app1; lia|]. split.
    - rewrite skipn_app. replace (p - length h)%nat with 0%nat by lia. reflexivity.
    - rewrite firstn_app. replace (p - length h)%nat with 0%nat by lia. cbn. apply app_nil_r. }
  destruct c as [now|now|].
  - rewrite app_nil_r. apply flat_map_ext_in. intros p Hp. destruct (P p Hp) as [-> [-> ->]]. rewrite existsb_app. cbn. rewrite orb_false_r. reflexivity.
  - f_equal.
    + apply flat_map_ext_in. intros p Hp. destruct (P p Hp) as [-> [-> ->]]. rewrite existsb_app. cbn. rewrite orb_false_r. reflexivity.
    + rewrite skipn_app, skipn_all, Nat.sub_diag. cbn. rewrite ?app_nil_r. reflexivity.
  - rewrite app_nil_r. rewrite (flat_map_ext_in _ (fun _ => @nil cpu)).
    + generalize (seq 0 (length h)). induction l; [reflexivity|assumption].
    + intros p Hp. destruct (P p Hp) as [-> [-> ->]]. rewrite existsb_app. cbn. rewrite orb_true_r. destruct (nth_error h p) as [[]|]; reflexivity.
Qed.
Lemma history_elapsed h : get_elapsed_time (history h) = total (measured h).
Proof.
  unfold get_elapsed_time. induction h as [|c h IH] using rev_ind; [reflexivity|]. rewrite history_snoc, measured_snoc. destruct c as [now|now|]; cbn [do_call start stop reset elapsed].
  - exact IH.
  - rewrite total_app, total_one, IH, history_start. reflexivity.
  - reflexivity.
Qed.

Lemma fold_intervals l : forall t, elapsed (fold_left do_call (intervals l) t) = cadd (elapsed t) (total (map (fun ab => csub (snd ab) (fst ab)) l)).
Proof.
  induction l as [|[a b] l IH]; intros t; [apply cpu_eq; cbn; lia|]. cbn [intervals flat_map app fold_left]. change (flat_map _ l) with (intervals l). rewrite IH.
  apply cpu_eq; cbn; lia.
Qed.
Lemma intervals_elapsed l : get_elapsed_time (history (intervals l)) = total (map (fun ab => csub (snd ab) (fst ab)) l).
Proof. unfold get_elapsed_time, history. rewrite fold_intervals. apply cpu_eq; cbn; lia. Qed.
Lemma start_twice h a b rest : history (h ++ Start a :: Start b :: rest) = history (h ++ Start b :: rest).
Proof. unfold history. rewrite !fold_left_app. reflexivity. Qed.
Lemma printed_ms rank h ms : print_timer rank (history h) = Some ms -> 0 <= wall (total (measured h)) ->
  rank = 0 /\ ms * 1000000 <= wall (total (measured h)) < (ms + 1) * 1000000.
Proof.
  unfold print_timer. destruct (Z.eqb_spec rank 0) as [->|]; [|discriminate]. intros H P. injection H as <-. split; [reflexivity|].
  rewrite <- history_elapsed in *. unfold get_elapsed_time in *. rewrite Z.quot_div_nonneg by lia. pose proof (Z.mod_pos_bound (wall (elapsed (history h))) 1000000). pose proof (Z.div_mod (wall (elapsed (history h))) 1000000). lia.
Qed.
Lemma print_other rank t : rank <> 0 -> print_timer rank t = None.
Proof. unfold print_timer. intros H. destruct (Z.eqb_spec rank 0); [contradiction|reflexivity]. Qed.

(** ** The driver *)
Definition stamped (clock : nat -> cpu) (iv : list (nat * nat)) : list (cpu * cpu) := map (fun ab => (clock (fst ab), clock (snd ab))) iv.
Definition balanced (k : timing) (t : trace) : Prop :=
  forall clock i, exists iv, calls_of k clock i t = intervals (stamped clock iv) /\ in_order i iv (i + length t).
Lemma teqb_true a b : timing_eqb a b = true <-> a = b.
Proof. destruct a, b; cbn; split; intros; congruence. Qed.
Lemma teqb_refl a : timing_eqb a a = true.
Proof. apply teqb_true; reflexivity. Qed.
Lemma calls_app k clock t1 t2 : forall i, calls_of k clock i (t1 ++ t2) = calls_of k clock i t1 ++ calls_of k clock (i + length t1) t2.
Proof.
  induction t1 as [|[k' o] t1 IH]; intros i; cbn [app calls_of length]; [rewrite Nat.add_0_r; reflexivity|]. rewrite IH, app_assoc. replace (S i + length t1)%nat with (i + S (length t1))%nat by lia. reflexivity.
Qed.
Lemma in_order_app l1 : forall lo mid l2 hi, in_order lo l1 mid -> in_order mid l2 hi -> in_order lo (l1 ++ l2) hi.
Proof.
  induction l1 as [|[a b] l1 IH]; cbn [in_order app]; intros lo mid l2 hi H1 H2.
  - destruct l2 as [|[a b] l2]; cbn [in_order] in *; [lia|]. destruct H2 as [H2 H3]. split; [lia|exact H3].
  - destruct H1 as [H3 [H4 H5]]. split; [lia|]. split; [lia|]. eapply IH; eassumption.
Qed.
Lemma intervals_app a b : intervals (a ++ b) = intervals a ++ intervals b.
Proof. unfold intervals. apply flat_map_app. Qed.
Lemma balanced_nil k : balanced k [].
Proof. intros clock i. exists []. split; [reflexivity|]. cbn. lia. Qed.
Lemma balanced_app k a b : balanced k a -> balanced k b -> balanced k (a ++ b).
Proof.
  intros Ha Hb clock i. destruct (Ha clock i) as [l1 [E1 O1]]. destruct (Hb clock (i + length a)%nat) as [l2 [E2 O2]]. exists (l1 ++ l2). split.
  - rewrite calls_app, E1, E2. unfold stamped. rewrite map_app, intervals_app. reflexivity.
  - rewrite app_length, Nat.add_assoc. eapply in_order_app; eassumption.
Qed.
Lemma balanced_concat k l : (forall t, In t l -> balanced k t) -> balanced k (concat l).
Proof. induction l as [|t l IH]; intros H; [apply balanced_nil|]. cbn. apply balanced_app; [apply H; left; reflexivity|apply IH; intros; apply H; right; assumption]. Qed.
Lemma balanced_many k n t : balanced k t -> balanced k (many n t).
Proof. intros H. apply balanced_concat. intros x Hx. apply repeat_spec in Hx. subst. exact H. Qed.
Lemma balanced_when k b t : balanced k t -> balanced k (when b t).
Proof. destruct b; [auto|intros; apply balanced_nil]. Qed.
Definition absent (k : timing) (t : trace) : Prop := forall o, ~ In (k, o) t.
Lemma absent_calls k clock t : absent k t -> forall i, calls_of k clock i t = [].
Proof.
  induction t as [|[k' o] t IH]; intros H i; [reflexivity|]. cbn [calls_of]. destruct (timing_eqb k k') eqn:E.
  - apply teqb_true in E. subst. exfalso. apply (H o). left; reflexivity.
  - cbn. apply IH. intros o' I. apply (H o'). right; exact I.
Qed.
Lemma balanced_section k k' body : balanced k body -> (k = k' -> absent k body) -> balanced k (section k' body).
Proof.
  intros B A clock i. unfold section. destruct (timing_eqb k k') eqn:E.
  - apply teqb_true in E. subst k'. specialize (A eq_refl). exists [(i, S (i + length body))%nat]. split.
    + cbn [calls_of]. rewrite teqb_refl, calls_app, (absent_calls k clock body A). cbn [app calls_of]. rewrite teqb_refl. cbn. reflexivity.
    + cbn [in_order length]. rewrite app_length. cbn. lia.
  - destruct (B clock (S i)) as [iv [E1 O1]]. exists iv. split.
    + cbn [calls_of]. rewrite E, calls_app, E1. cbn [app calls_of]. rewrite E. cbn. rewrite app_nil_r. reflexivity.
    + cbn [length]. rewrite app_length. cbn [length]. assert (forall l lo lo' hi hi', (lo' <= lo)%nat -> (hi <= hi')%nat -> in_order lo l hi -> in_order lo' l hi') as W.
      { clear. induction l as [|[a b] l IH]; cbn; intros; [lia|]. destruct H1 as [? [? ?]]. split; [lia|]. split; [lia|]. eapply IH; [|exact H0|exact H3]. lia. }
      eapply W; [| |exact O1]; lia.
Qed.
Lemma absent_app k a b : absent k a -> absent k b -> absent k (a ++ b).
Proof. intros A B o I. apply in_app_or in I as [I|I]; [exact (A o I)|exact (B o I)]. Qed.
Lemma absent_concat k l : (forall t, In t l -> absent k t) -> absent k (concat l).
Proof. intros H o I. apply in_concat in I as [t [It I]]. exact (H t It o I). Qed.
Lemma absent_many k n t : absent k t -> absent k (many n t).
Proof. intros H. apply absent_concat. intros x Hx. apply repeat_spec in Hx. subst. exact H. Qed.
Lemma absent_when k b t : absent k t -> absent k (when b t).
Proof. destruct b; [auto|intros _ o []]. Qed.
Lemma absent_section k k' body : k <> k' -> absent k body -> absent k (section k' body).
Proof.
  intros D A o I. unfold section in I. destruct I as [I|I]; [injection I; congruence|]. apply in_app_or in I as [I|[I|[]]]; [exact (A o I)|injection I; congruence].
Qed.
Lemma absent_nil k : absent k [].
Proof. intros o []. Qed.

Ltac bal := repeat first [apply balanced_nil | apply balanced_app | apply balanced_many | apply balanced_when | apply balanced_section; [|intros _]
  | apply absent_nil | apply absent_app | apply absent_many | apply absent_when | apply absent_section; [congruence|]].
Lemma evaluations_balanced k l : balanced k (concat (map (fun n => many n evaluation) l)).
Proof. apply balanced_concat. intros t Ht. apply in_map_iff in Ht as [n [<- _]]. unfold evaluation. bal. Qed.
Lemma evaluations_absent k l : k <> Eval_th_ph -> k <> Bound_mat -> absent k (concat (map (fun n => many n evaluation) l)).
Proof. intros. apply absent_concat. intros t Ht. apply in_map_iff in Ht as [n [<- _]]. unfold evaluation. bal. Qed.
Lemma step_balanced k s : k <> Cov_sparsity -> balanced k (step_trace s).
Proof.
  intros NC. unfold step_trace, assimilation_trace. repeat apply balanced_app.
  - bal.
  - apply balanced_section; [bal|]. intros ->. bal.
  - apply balanced_section; [apply evaluations_balanced|]. intros ->. apply evaluations_absent; congruence.
  - apply balanced_when. apply balanced_app; [bal|]. apply balanced_when. apply balanced_app; [bal|]. apply balanced_app; [|bal].
    intros clock i. exists []. split; [|cbn; lia]. cbn [calls_of]. replace (timing_eqb k Cov_sparsity) with false; [reflexivity|].
    symmetry. destruct (timing_eqb k Cov_sparsity) eqn:E; [apply teqb_true in E; contradiction|reflexivity].
  - bal.
Qed.
Lemma step_no_main s : absent Main (step_trace s).
Proof.
  unfold step_trace, assimilation_trace. repeat apply absent_app; bal.
  - apply evaluations_absent; congruence.
  - intros o [I|[I|[]]]; discriminate.
Qed.
Lemma body_no_main n0 steps : absent Main (many n0 (section Output []) ++ concat (map step_trace steps)).
Proof. apply absent_app; [bal|]. apply absent_concat. intros t Ht. apply in_map_iff in Ht as [s [<- _]]. apply step_no_main. Qed.
Lemma run_balanced k n0 steps : k <> Cov_sparsity -> balanced k (run_trace n0 steps).
Proof.
  intros NC. unfold run_trace. apply balanced_section.
  - apply balanced_app; [bal|]. apply balanced_concat. intros t Ht. apply in_map_iff in Ht as [s [<- _]]. apply step_balanced; assumption.
  - intros ->. apply body_no_main.
Qed.
Lemma run_intervals k n0 steps clock : k <> Cov_sparsity -> exists iv,
  calls_of k clock 0 (run_trace n0 steps) = intervals (map (fun ab => (clock (fst ab), clock (snd ab))) iv) /\
  in_order 0 iv (length (run_trace n0 steps)) /\
  get_elapsed_time (run_timer k clock (run_trace n0 steps)) = total (map (fun ab => csub (clock (snd ab)) (clock (fst ab))) iv).
Proof.
  intros NC. destruct (run_balanced k n0 steps NC clock 0%nat) as [iv [E O]]. exists iv. split; [exact E|]. split; [exact O|].
  unfold run_timer. rewrite E, intervals_elapsed. unfold stamped. rewrite map_map. reflexivity.
Qed.

(** Intervals in order, under a monotone clock, add up to at most the time from the first to the last call. *)
Lemma ordered_total clock : monotone clock -> forall l lo hi, in_order lo l hi -> 
  cle (mkcpu 0 0 0) (total (map (fun ab => csub (clock (snd ab)) (clock (fst ab))) l)) /\
  cle (total (map (fun ab => csub (clock (snd ab)) (clock (fst ab))) l)) (csub (clock (pred hi)) (clock lo)) \/ l = [].
Proof.
  intros M. induction l as [|[a b] l IH]; intros lo hi H; [right; reflexivity|]. left. cbn [in_order] in H. destruct H as [H1 [H2 H3]].
  assert (forall l lo hi, in_order lo l hi -> (lo <= hi)%nat) as W by (clear; induction l as [|[x y] l IHl]; cbn; intros; [assumption|]; destruct H as [? [? H]]; apply IHl in H; lia).
  pose proof (W _ _ _ H3) as Wb. pose proof (M lo a H1) as [M1 [M2 M3]]. pose proof (M a b ltac:(lia)) as [M4 [M5 M6]]. pose proof (M b (pred hi) ltac:(lia)) as [M7 [M8 M9]]. 
  pose proof (M b (S b) ltac:(lia)) as [M10 [M11 M12]].
  destruct (IH (S b) hi H3) as [[[P1 [P2 P3]] [Q1 [Q2 Q3]]]| ->]; unfold cle in *; cbn [map total wall user system fold_right csub fst snd] in *; lia.
Qed.
Lemma cov_never_stopped n0 steps clock : get_elapsed_time (run_timer Cov_sparsity clock (run_trace n0 steps)) = mkcpu 0 0 0.
Proof.
    unfold run_timer, history, get_elapsed_time. assert (forall t clock i tm, (forall o, In (Cov_sparsity, o) t -> o = On) -> elapsed (fold_left do_call (calls_of Cov_sparsity clock i t) tm) = elapsed tm) as Z0.
    { clear. induction t as [|[k' o] t IH]; intros clock i tm H; [reflexivity|]. cbn [calls_of]. destruct (timing_eqb Cov_sparsity k') eqn:E.
      - apply teqb_true in E. subst k'. assert (o = On) as -> by (apply H; left; reflexivity). cbn [app fold_left]. rewrite IH; [reflexivity|]. intros; apply H; right; assumption.
      - cbn [app]. apply IH. intros; apply H; right; assumption. }
    rewrite Z0; [reflexivity|]. clear. intros o I. unfold run_trace, section in I.
    assert (forall l k n, In (Cov_sparsity, o) (many n (section k l)) -> k <> Cov_sparsity -> l = [] -> False) as NO.
    { intros l k n I' D ->. assert (absent Cov_sparsity (many n (section k []))) as A by (apply absent_many; apply absent_section; [congruence|apply absent_nil]). exact (A o I'). }
    destruct I as [I|I]; [discriminate|]. apply in_app_or in I as [I|[I|[]]]; [|discriminate]. apply in_app_or in I as [I|I]; [exfalso; exact (NO [] Output n0 I ltac:(discriminate) eq_refl)|].
    apply in_concat in I as [t [Ht I]]. apply in_map_iff in Ht as [s [<- _]]. unfold step_trace, assimilation_trace in I.
    repeat (apply in_app_or in I as [I|I]).
    + exfalso. assert (absent Cov_sparsity (when (refines s) (section Refine []))) as A by bal. exact (A o I).
    + exfalso. assert (absent Cov_sparsity (section Activate (when (adds s) (many (members s) (section Search []))))) as A by bal. exact (A o I).
    + exfalso. assert (absent Cov_sparsity (section Evol (concat (map (fun n => many n evaluation) (evaluations s))))) as A by (apply absent_section; [congruence|apply evaluations_absent; congruence]). exact (A o I).
    + destruct (assimilates s); [|destruct I]. cbn [when] in I. apply in_app_or in I as [I|I]; [exfalso; destruct I as [I|[I|[]]]; discriminate|]. destruct (mapped s); [|destruct I]. cbn [when] in I.
      cbn in I. repeat (destruct I as [I|I]; [first [discriminate I|injection I as <-; reflexivity]|]). destruct I.
    + exfalso. assert (absent Cov_sparsity (when (writes s) (many (members s) (section Output [])))) as A by bal. exact (A o I).
Qed.
Lemma run_within_main k n0 steps clock : monotone clock -> 
  cle (mkcpu 0 0 0) (get_elapsed_time (run_timer k clock (run_trace n0 steps))) /\
  cle (get_elapsed_time (run_timer k clock (run_trace n0 steps))) (get_elapsed_time (run_timer Main clock (run_trace n0 steps))) /\
  get_elapsed_time (run_timer Main clock (run_trace n0 steps)) = csub (clock (pred (length (run_trace n0 steps)))) (clock 0%nat).
Proof.
  intros M. assert (get_elapsed_time (run_timer Main clock (run_trace n0 steps)) = csub (clock (pred (length (run_trace n0 steps)))) (clock 0%nat)) as EM.
  { pose proof (body_no_main n0 steps) as A. unfold run_timer, run_trace. revert A. generalize (many n0 (section Output []) ++ concat (map step_trace steps)). intros body A.
    unfold section. cbn [calls_of timing_eqb]. rewrite calls_app, (absent_calls Main clock _ A). cbn [app calls_of timing_eqb length]. rewrite app_length. cbn [length]. rewrite Nat.add_1_r. cbn [pred Nat.add].
    unfold history, get_elapsed_time. cbn. apply cpu_eq; cbn; lia. }
  pose proof (M 0%nat (pred (length (run_trace n0 steps))) ltac:(lia)) as [M1 [M2 M3]].
  destruct (timing_eqb k Cov_sparsity) eqn:E.
  - apply teqb_true in E. subst k. assert (get_elapsed_time (run_timer Cov_sparsity clock (run_trace n0 steps)) = czero) as ->; [|rewrite EM; split; [unfold cle, total; cbn [wall user system csub czero map fold_right]; lia|]; split; [unfold cle, total; cbn [wall user system csub czero map fold_right]; lia|reflexivity]].
    apply cov_never_stopped.
  - assert (k <> Cov_sparsity) as NC by (intros ->; discriminate). destruct (run_intervals k n0 steps clock NC) as [iv [_ [O ->]]].
    destruct (ordered_total clock M iv _ _ O) as [[P Q]| ->]; [|rewrite EM; split; [unfold cle, total; cbn [wall user system csub czero map fold_right]; lia|]; split; [unfold cle, total; cbn [wall user system csub czero map fold_right]; lia|reflexivity]]. split; [exact P|]. split; [rewrite EM; exact Q|exact EM].
Qed.

(** ** Nested timers *)
Definition spent (k : timing) (clock : nat -> cpu) (i : nat) (t : trace) : cpu := elapsed (history (calls_of k clock i t)).
Lemma spent_app k clock i a b : balanced k a -> balanced k b -> spent k clock i (a ++ b) = cadd (spent k clock i a) (spent k clock (i + length a) b).
Proof.
  intros A B. unfold spent, history. rewrite calls_app, fold_left_app. destruct (A clock i) as [la [-> _]]. destruct (B clock (i + length a)%nat) as [lb [-> _]].
  rewrite !fold_intervals. cbn [elapsed new_timer]. apply cpu_eq; cbn; lia.
Qed.
Lemma spent_absent k clock i t : absent k t -> spent k clock i t = czero.
Proof. intros A. unfold spent. rewrite (absent_calls k clock t A). reflexivity. Qed.
Lemma spent_section k clock i body : absent k body -> spent k clock i (section k body) = csub (clock (S i + length body)%nat) (clock i).
Proof.
  intros A. unfold spent, section. cbn [calls_of]. rewrite teqb_refl, calls_app, (absent_calls k clock body A). cbn [app calls_of]. rewrite teqb_refl. cbn. apply cpu_eq; cbn; lia.
Qed.
Lemma spent_inside k k' clock i body : k <> k' -> spent k clock i (section k' body) = spent k clock (S i) body.
Proof.
  intros D. assert (timing_eqb k k' = false) as E by (destruct (timing_eqb k k') eqn:E; [apply teqb_true in E; contradiction|reflexivity]).
  unfold spent, section. cbn [calls_of]. rewrite E, calls_app. cbn [app calls_of]. rewrite E. cbn [app]. rewrite app_nil_r. reflexivity.
Qed.
Definition within (ks : list timing) (clock : nat -> cpu) (t : trace) : Prop :=
  forall i, cle (total (map (fun k => spent k clock i t) ks)) (csub (clock (i + length t)%nat) (clock i)).
Lemma within_nil ks clock : within ks clock [].
Proof.
  intros i. cbn [length]. rewrite Nat.add_0_r. replace (map (fun k => spent k clock i []) ks) with (map (fun _ : timing => czero) ks) by reflexivity.
  unfold cle, total. cbn [wall user system csub]. rewrite !map_map. cbn [wall user system czero].
  assert (fold_right Z.add 0 (map (fun _ : timing => 0) ks) = 0) as -> by (clear; induction ks; cbn; lia). lia.
Qed.
Lemma total_cadd {A} (f g h : A -> cpu) l : (forall a, In a l -> f a = cadd (g a) (h a)) -> total (map f l) = cadd (total (map g l)) (total (map h l)).
Proof.
  induction l as [|a l IH]; intros H; [reflexivity|]. assert (forall x (y : list cpu), total (x :: y) = cadd x (total y)) as TC by (intros; apply cpu_eq; reflexivity).
  cbn [map]. rewrite !TC, IH, (H a (or_introl eq_refl)); [|intros; apply H; right; assumption]. apply cpu_eq; cbn; lia.
Qed.
Lemma within_app ks clock a b : (forall k, In k ks -> balanced k a /\ balanced k b) -> within ks clock a -> within ks clock b -> within ks clock (a ++ b).
Proof.
  intros B Ha Hb i. rewrite (total_cadd _ (fun k => spent k clock i a) (fun k => spent k clock (i + length a) b)).
  - specialize (Ha i). specialize (Hb (i + length a)%nat). rewrite app_length, Nat.add_assoc. unfold cle in *. cbn [wall user system csub cadd] in *. lia.
  - intros k Hk. destruct (B k Hk). apply spent_app; assumption.
Qed.
Lemma within_many ks clock n t : (forall k, In k ks -> balanced k t) -> within ks clock t -> within ks clock (many n t).
Proof.
  intros B H. induction n as [|n IH]; [apply within_nil|]. change (many (S n) t) with (t ++ many n t). apply within_app; [|assumption|assumption].
  intros k Hk. split; [apply B; assumption|apply balanced_many, B; assumption].
Qed.
Lemma within_evaluation clock : monotone clock -> within [Eval_th_ph; Bound_mat] clock evaluation.
Proof.
  intros M i. assert (spent Eval_th_ph clock i evaluation = csub (clock (i + 3)%nat) (clock (i + 2)%nat)) as E1.
  { unfold evaluation. rewrite spent_app by bal. rewrite spent_inside by congruence. rewrite (spent_absent _ _ _ []) by apply absent_nil. rewrite spent_section by apply absent_nil. cbn [length section app]. rewrite Nat.add_0_r.
    replace (S (i + 2)) with (i + 3)%nat by lia. apply cpu_eq; cbn; lia. }
  assert (spent Bound_mat clock i evaluation = csub (clock (i + 1)%nat) (clock i)) as E2.
  { unfold evaluation. rewrite spent_app by bal. rewrite spent_section by apply absent_nil. rewrite spent_inside by congruence. rewrite (spent_absent _ _ _ []) by apply absent_nil. cbn [length]. rewrite Nat.add_0_r.
    replace (S i) with (i + 1)%nat by lia. apply cpu_eq; cbn; lia. }
  cbn [map]. rewrite E1, E2. change (length evaluation) with 4%nat. pose proof (M (i + 1)%nat (i + 2)%nat ltac:(lia)) as [? [? ?]]. pose proof (M (i + 3)%nat (i + 4)%nat ltac:(lia)) as [? [? ?]].
  unfold cle, total. cbn [map fold_right wall user system csub]. lia.
Qed.
Lemma within_evaluations clock l : monotone clock -> within [Eval_th_ph; Bound_mat] clock (concat (map (fun n => many n evaluation) l)).
Proof.
  intros M. assert (forall k, balanced k evaluation) as B by (intros k; unfold evaluation; bal). induction l as [|n l IH]; [apply within_nil|]. cbn [map concat]. apply within_app; [| |exact IH].
  - intros k _. split; [apply balanced_many, B|apply evaluations_balanced].
  - apply within_many; [intros; apply B|apply within_evaluation; assumption].
Qed.
Lemma within_searches clock b n : monotone clock -> within [Search] clock (when b (many n (section Search []))).
Proof.
  intros M. destruct b; [|apply within_nil]. apply within_many; [intros; bal|]. intros i. cbn [map]. rewrite spent_section by apply absent_nil. change (length (section Search [])) with 2%nat. cbn [length]. rewrite Nat.add_0_r.
  pose proof (M (S i) (i + 2)%nat ltac:(lia)) as [? [? ?]]. unfold cle, total. cbn [map fold_right wall user system csub]. lia.
Qed.
Lemma nested_section ks k clock body : monotone clock -> ~ In k ks -> absent k body -> within ks clock body ->
  forall i, cle (total (map (fun k' => spent k' clock i (section k body)) ks)) (spent k clock i (section k body)).
Proof.
  intros M NI A W i. rewrite spent_section by assumption. rewrite (map_ext_in _ (fun k' => spent k' clock (S i) body)).
  - specialize (W (S i)). pose proof (M i (S i) ltac:(lia)) as [? [? ?]]. unfold cle in *. cbn [wall user system csub] in *. lia.
  - intros k' Hk. apply spent_inside. intros ->. contradiction.
Qed.
(** [k]'s own time covers that of the timers [ks]. *)
Definition covered (ks : list timing) (k : timing) (clock : nat -> cpu) (t : trace) : Prop :=
  forall i, cle (total (map (fun k' => spent k' clock i t) ks)) (spent k clock i t).
Lemma covered_app ks k clock a b : (forall k', In k' (k :: ks) -> balanced k' a /\ balanced k' b) -> covered ks k clock a -> covered ks k clock b -> covered ks k clock (a ++ b).
Proof.
  intros B Ha Hb i. rewrite (total_cadd _ (fun k => spent k clock i a) (fun k => spent k clock (i + length a) b)).
  - destruct (B k (or_introl eq_refl)) as [B1 B2]. rewrite (spent_app k clock i a b B1 B2). specialize (Ha i). specialize (Hb (i + length a)%nat). unfold cle in *. cbn [wall user system cadd] in *. lia.
  - intros k' Hk. destruct (B k' (or_intror Hk)). apply spent_app; assumption.
Qed.
Lemma covered_absent ks k clock t : (forall k', In k' (k :: ks) -> absent k' t) -> covered ks k clock t.
Proof.
  intros A i. rewrite (spent_absent k) by (apply A; left; reflexivity). rewrite (map_ext_in _ (fun _ => czero)) by (intros; apply spent_absent, A; right; assumption).
  unfold cle, total. rewrite !map_map. cbn [wall user system czero]. assert (fold_right Z.add 0 (map (fun _ : timing => 0) ks) = 0) as -> by (clear; induction ks; cbn; lia). lia.
Qed.
Lemma covered_concat ks k clock l : (forall t, In t l -> covered ks k clock t /\ forall k', In k' (k :: ks) -> balanced k' t) -> covered ks k clock (concat l).
Proof.
  induction l as [|t l IH]; intros H; [apply covered_absent; intros; apply absent_nil|]. cbn. apply covered_app.
  - intros k' Hk. split; [apply H; [left; reflexivity|assumption]|]. apply balanced_concat. intros x Hx. apply H; [right; assumption|assumption].
  - apply H. left; reflexivity.
  - apply IH. intros x Hx. apply H. right; assumption.
Qed.
Lemma step_covered ks k clock s : monotone clock -> (ks = [Eval_th_ph; Bound_mat] /\ k = Evol \/ ks = [Search] /\ k = Activate) -> covered ks k clock (step_trace s).
Proof.
  intros M H. assert (forall k', In k' (k :: ks) -> k' <> Cov_sparsity /\ k' <> Refine /\ k' <> Output /\ k' <> Exp_data /\ k' <> Dof_mapping /\ k' <> Obs_cov /\ k' <> Update_ens) as NC.
  { intros k' Hk. destruct H as [[-> ->]|[-> ->]]; cbn in Hk; intuition subst; discriminate. }
  unfold step_trace, assimilation_trace. 
  assert (forall k', In k' (k :: ks) -> balanced k' (when (refines s) (section Refine []))) as B1 by (intros; bal).
  assert (forall k', In k' (k :: ks) -> balanced k' (section Activate (when (adds s) (many (members s) (section Search []))))) as B2 by (intros; apply balanced_section; [bal|intros ->; bal]).
  assert (forall k', In k' (k :: ks) -> balanced k' (section Evol (concat (map (fun n => many n evaluation) (evaluations s))))) as B3.
  { intros; apply balanced_section; [apply evaluations_balanced|intros ->; apply evaluations_absent; congruence]. }
  assert (forall k', In k' (k :: ks) -> absent k' (when (assimilates s) (section Exp_data [] ++ when (mapped s) (section Dof_mapping [] ++ [(Cov_sparsity, On); (Cov_sparsity, On)] ++ section Obs_cov [] ++ section Update_ens [])))) as A4.
  { intros k' Hk. destruct (NC k' Hk) as [N1 [N2 [N3 [N4 [N5 [N6 N7]]]]]]. bal. intros o [I|[I|[]]]; injection I as I _; congruence. }
  assert (forall k', In k' (k :: ks) -> balanced k' (when (writes s) (many (members s) (section Output [])))) as B5 by (intros; bal).
  assert (forall k', absent k' (when (assimilates s) (section Exp_data [] ++ when (mapped s) (section Dof_mapping [] ++ [(Cov_sparsity, On); (Cov_sparsity, On)] ++ section Obs_cov [] ++ section Update_ens []))) ->
     balanced k' (when (assimilates s) (section Exp_data [] ++ when (mapped s) (section Dof_mapping [] ++ [(Cov_sparsity, On); (Cov_sparsity, On)] ++ section Obs_cov [] ++ section Update_ens [])))) as AB.
  { intros k' A clock' i. exists []. split; [apply absent_calls; assumption|cbn; lia]. }
  repeat (apply covered_app; [intros k' Hk; split; repeat apply balanced_app; auto| |]).
  - apply covered_absent. intros k' Hk. destruct (NC k' Hk) as [N1 [N2 [N3 [N4 [N5 [N6 N7]]]]]]. bal.
  - destruct H as [[-> ->]|[-> ->]].
    + apply covered_absent. intros k' Hk. cbn in Hk. destruct Hk as [<-|[<-|[<-|[]]]]; bal.
    + intros i. apply nested_section; [assumption|intros [C|[]]; discriminate|bal|apply within_searches; assumption].
  - destruct H as [[-> ->]|[-> ->]].
    + intros i. apply nested_section; [assumption|intros [C|[C|[]]]; discriminate|apply evaluations_absent; congruence|apply within_evaluations; assumption].
    + apply covered_absent. intros k' Hk. cbn in Hk. destruct Hk as [<-|[<-|[]]]; (apply absent_section; [congruence|]; apply evaluations_absent; congruence).
  - apply covered_absent. assumption.
  - apply covered_absent. intros k' Hk. destruct (NC k' Hk) as [N1 [N2 [N3 [N4 [N5 [N6 N7]]]]]]. bal.
Qed.
Lemma run_covered ks k n0 steps clock : monotone clock -> (ks = [Eval_th_ph; Bound_mat] /\ k = Evol \/ ks = [Search] /\ k = Activate) ->
  cle (total (map (fun k' => get_elapsed_time (run_timer k' clock (run_trace n0 steps))) ks)) (get_elapsed_time (run_timer k clock (run_trace n0 steps))).
Proof.
  intros M H.
  change (cle (total (map (fun k' => spent k' clock 0 (run_trace n0 steps)) ks)) (spent k clock 0 (run_trace n0 steps))).
  assert (forall k', In k' (k :: ks) -> k' <> Cov_sparsity /\ k' <> Output /\ k' <> Main) as NC.
  { intros k' Hk. destruct H as [[-> ->]|[-> ->]]; cbn in Hk; intuition subst; discriminate. }
  unfold run_trace. rewrite (map_ext_in _ (fun k' => spent k' clock 1 (many n0 (section Output []) ++ concat (map step_trace steps)))).
  - rewrite spent_inside by (apply NC; left; reflexivity). assert (covered ks k clock (many n0 (section Output []) ++ concat (map step_trace steps))) as C; [|apply (C 1%nat)].
    apply covered_app.
    + intros k' Hk. split; [bal|]. apply balanced_concat. intros t Ht. apply in_map_iff in Ht as [s [<- _]]. apply step_balanced. apply NC; assumption.
    + apply covered_absent. intros k' Hk. destruct (NC k' Hk) as [N1 [N2 N3]]. bal.
    + apply covered_concat. intros t Ht. apply in_map_iff in Ht as [s [<- _]]. split; [apply step_covered; assumption|]. intros k' Hk. apply step_balanced. apply NC; assumption.
  - intros k' Hk. apply spent_inside. apply NC. right; assumption.
Qed.
