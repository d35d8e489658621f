(** EnsembleModel.v -- ensembles: split_global_communicator (application/adamantine.hh:1440-1491), the member files of checkpoint and
    restart in run_ensemble (1672-1687, 2356-2380), source/ensemble_management.cc. *)
From Coq Require Import ZArith Bool List String Ascii Lia.
From Verif Require Import Base ScanPathModel MaterialModel InputModel.
Import ListNotations.
Local Open Scope string_scope.

(** ** split_global_communicator (adamantine.hh:1440-1491)
    Result of a rank: colour (the argument of MPI_Comm_split), number of local members, first local member.
    Simplification: the quotient of the two counts is computed exactly (EnsembleProofs2.quotient_binary64 proves that binary64
    takes the same decisions below 2^32); no members at all: the quotient is infinite or NaN and its conversion to int undefined. *)
Record part := mkpart { part_color : nat; part_size : nat; part_first : nat }.
Definition split (n_procs ensemble_size rank : nat) : res part :=
  if Nat.eqb ensemble_size 0 then UB
  else if Nat.ltb ensemble_size n_procs then
    if Nat.eqb (Nat.modulo n_procs ensemble_size) 0
    then let color := Nat.div rank (Nat.div n_procs ensemble_size) in Ok (mkpart color 1 color)
    else Throw
  else
    let members_per_proc := Nat.div ensemble_size n_procs in
    let leftover := (ensemble_size - n_procs * members_per_proc)%nat in
    if Nat.eqb rank 0 then Ok (mkpart rank (members_per_proc + leftover) 0)
    else Ok (mkpart rank members_per_proc (rank * members_per_proc + leftover)).

(** ** Files of the local member [member] (checkpoint 2373-2375, restart 1677-1679). *)
Definition saved_file (prefix : string) (p : part) (member : nat) : string := prefix ++ "_" ++ to_string (part_first p + member).
Definition loaded_file (prefix : string) (p : part) (member : nat) : string := prefix ++ "_" ++ to_string member.

(** ** ptree::put: sets the data of the node at the path, created if necessary (the first child of each name along the path). *)
Fixpoint update_first (name : string) (f : option ptree -> ptree) (kids : list (string * ptree)) : list (string * ptree) :=
  match kids with
  | [] => [(name, f None)]
  | (k, c) :: rest => if String.eqb k name then (k, f (Some c)) :: rest else (k, c) :: update_first name f rest
  end.
Fixpoint put (t : ptree) (path : list string) (v : string) : ptree :=
  match path with
  | [] => Node v (pkids t)
  | n :: rest => Node (pdata t) (update_first n (fun o => put (match o with Some c => c | None => Node "" [] end) rest v) (pkids t))
  end.

Section Ensemble.
  Context {N : Num} (tdouble : string -> option N) (fmt : N -> string).
  Local Open Scope num_scope.

  (** get_normal_random_vector (ensemble_management.cc:18-52).  The generator is default-seeded in every call, so the standard normal
      variates are the same stream [z] each time; libstdc++ returns z * stddev + mean.  [fuel] bounds the redraws of one element,
      None when it runs out (the do-while loop goes on).  The assertion on stddev is compiled out in release builds. *)
  Variable z : nat -> N.
  Definition draw (mean stddev : N) (k : nat) : N := z k * stddev + mean.
  Fixpoint draw_one (fuel : nat) (mean stddev : N) (k : nat) : option (N * nat) :=
    match fuel with
    | O => None
    | S fuel' => if draw mean stddev k <? nZ 0 then draw_one fuel' mean stddev (S k) else Some (draw mean stddev k, S k)
    end.
  Fixpoint draw_vector (fuel length : nat) (mean stddev : N) (k : nat) : option (list N) :=
    match length with
    | O => Some []
    | S l => match draw_one fuel mean stddev k with
             | Some (v, k') => match draw_vector fuel l mean stddev k' with Some vs => Some (v :: vs) | None => None end
             | None => None
             end
    end.
  Definition normal_random_vector (fuel length n_rejected : nat) (mean stddev : N) : option (list N) := draw_vector fuel length mean stddev n_rejected.

  (** full_path.erase(length - 7) on the last name of the path; a last name shorter than that gives another path or an exception: Throw. *)
  Definition drop_last_7 (s : string) : res string :=
    if Nat.ltb (String.length s) 7 then Throw else Ok (substring 0 (String.length s - 7) s).
  Fixpoint strip_stddev (path : list string) : res (list string) :=
    match path with
    | [] => Throw
    | [s] => do s' <- drop_last_7 s; Ok [s']
    | s :: rest => do rest' <- strip_stddev rest; Ok (s :: rest')
    end.

  (** State of traverse: databases of the local members, keys, n_rejected_draws. *)
  Record tstate := mkts { ts_dbs : list ptree; ts_keys : list (list string); ts_rejected : nat }.
  Fixpoint put_all (dbs : list ptree) (path : list string) (vs : list N) : list ptree :=
    match dbs, vs with db :: dbs', v :: vs' => put db path (fmt v) :: put_all dbs' path vs' | _, _ => dbs end.
  (** One leaf (ensemble_management.cc:176-206); Ok None when a draw does not end. *)
  Definition leaf (fuel local global : nat) (st : tstate) (path : list string) : res (option tstate) :=
    if list_eq_dec string_dec path ["ensemble_simulation"] then Ok (Some st)
    else if list_eq_dec string_dec path ["ensemble_size"] then Ok (Some st)
    else
      match ts_dbs st with
      | [] => UB
      | db0 :: _ =>
          do stddev <- get tdouble db0 ("ensemble" :: path);
          do key <- strip_stddev path;
          do mean <- get tdouble db0 key;
          match normal_random_vector fuel local (ts_rejected st) mean stddev with
          | None => Ok None
          | Some values => Ok (Some (mkts (put_all (ts_dbs st) key values) (ts_keys st ++ [key]) (ts_rejected st + global)))
          end
      end.
  (** traverse (164-213): depth first over the children. *)
  Fixpoint traverse (fuel local global : nat) (t : ptree) (path : list string) (st : tstate) {struct t} : res (option tstate) :=
    let fix go (ks : list (string * ptree)) (st : tstate) {struct ks} : res (option tstate) :=
      match ks with
      | [] => Ok (Some st)
      | (k, c) :: rest =>
          do o <- (match c with
                   | Node _ [] => leaf fuel local global st (path ++ [k])
                   | Node _ (_ :: _) => traverse fuel local global c (path ++ [k]) st
                   end);
          match o with Some st' => go rest st' | None => Ok None end
      end in
    match t with Node _ ks => go ks st end.
  (** create_database_ensemble (215-273): a bad path is caught and the run aborts (Throw). *)
  Definition create_database_ensemble (fuel : nat) (db : ptree) (first local global : nat) : res (option tstate) :=
    do ens <- child db ["ensemble"];
    traverse fuel local global ens [] (mkts (repeat db local) [] first).

  (** ** get_bounding_heat_sources (56-161).  A beam: type, diameter, depth. *)
  Record beam := mkbeam { b_type : string; b_diameter : N; b_depth : N }.
  (** The pair sent for a beam that is not a cube (81-89): both entries are read from "diameter". *)
  Definition beam_pair (b : beam) : N * N := (b_diameter b, b_diameter b).
  Definition member_pairs (m : list beam) : list (N * N) := map beam_pair (filter (fun b => negb (String.eqb (b_type b) "cube")) m).
  (** Running maxima over the beams of one member (105-119); an index beyond the beams of the first local member is out of bounds. *)
  Fixpoint max_member (acc pairs : list (N * N)) : res (list (N * N)) :=
    match pairs, acc with
    | [], _ => Ok acc
    | (d, p) :: pairs', (dm, pm) :: acc' => do r <- max_member acc' pairs'; Ok ((if dm <? d then d else dm, if pm <? p then p else pm) :: r)
    | _ :: _, [] => UB
    end.
  Fixpoint max_members (acc : list (N * N)) (ms : list (list (N * N))) : res (list (N * N)) :=
    match ms with [] => Ok acc | m :: rest => do acc' <- max_member acc m; max_members acc' rest end.
  (** The sources created (127-158); None for an unknown type (null pointer). *)
  Fixpoint bounding (maxima : list (N * N)) (beams : list beam) : res (list (option beam)) :=
    match beams with
    | [] => Ok []
    | b :: rest =>
        if String.eqb (b_type b) "goldak" || String.eqb (b_type b) "electron_beam" then
          match maxima with
          | (d, p) :: maxima' => do r <- bounding maxima' rest; Ok (Some (mkbeam (b_type b) d p) :: r)
          | [] => UB
          end
        else do r <- bounding maxima rest; Ok ((if String.eqb (b_type b) "cube" then Some b else None) :: r)
    end.
  (** [local]: members of this process group; [all]: members of all the ranks, in rank order (all_gather). *)
  Definition bounding_heat_sources (local : list (list beam)) (all : list (list (list beam))) : res (list (option beam)) :=
    match local with
    | [] => UB
    | m0 :: _ =>
        do maxima <- max_members (map (fun _ => (nZ (-1), nZ (-1))) (member_pairs m0)) (List.concat (map (map member_pairs) all));
        bounding maxima m0
    end.
End Ensemble.
Arguments beam : clear implicits.
