(** TimerSpec.v -- independent vocabulary for C50. *)
From Coq Require Import ZArith Bool List.
From Verif Require Import TimerModel.
Import ListNotations.
Local Open Scope Z_scope.

Definition total (l : list cpu) : cpu := mkcpu (fold_right Z.add 0 (map wall l)) (fold_right Z.add 0 (map user l)) (fold_right Z.add 0 (map system l)).

(** Clock reading of the last start of a history, the clock's epoch if there is none. *)
Definition last_start (h : list call) : cpu :=
  match find (fun c => match c with Start _ => true | _ => false end) (rev h) with Some (Start now) => now | _ => mkcpu 0 0 0 end.
Definition is_reset (c : call) : bool := match c with Reset => true | _ => false end.

(** The intervals a history measures: from the last start before each stop to that stop, for the stops that no reset follows. *)
Definition measured (h : list call) : list cpu :=
  flat_map (fun p => match nth_error h p with
                     | Some (Stop now) => if existsb is_reset (skipn p h) then [] else [csub now (last_start (firstn p h))]
                     | _ => []
                     end) (seq 0 (length h)).

(** A well-behaved use: start and stop alternate. *)
Definition intervals (l : list (cpu * cpu)) : list call := flat_map (fun ab => [Start (fst ab); Stop (snd ab)]) l.

(** Calls number a < b of a trace, one interval after the other, within [lo, hi). *)
Fixpoint in_order (lo : nat) (l : list (nat * nat)) (hi : nat) : Prop :=
  match l with [] => (lo <= hi)%nat | (a, b) :: r => (lo <= a)%nat /\ (a < b)%nat /\ in_order (S b) r hi end.

Definition cle (a b : cpu) : Prop := wall a <= wall b /\ user a <= user b /\ system a <= system b.
Definition monotone (clock : nat -> cpu) : Prop := forall i j, (i <= j)%nat -> cle (clock i) (clock j).
