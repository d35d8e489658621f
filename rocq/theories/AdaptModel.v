(** AdaptModel.v -- source/ClosestSourcePointAdaptation.hh: transfer of quadrature-point values between a cell and its children.

    Not modelled: dealii::FEValues.  The functions receive the quadrature points it produces: those of the parent cell and, child by
    child, those of the children.  A point is the list of its spacedim coordinates. *)
From Coq Require Import ZArith Bool List.
From Verif Require Import Base.
Import ListNotations.

Section Adapt.
  Context {N : Num}.
  Local Open Scope num_scope.

  (** dealii::Tensor<1, spacedim>::norm_square of a difference of points (used at ClosestSourcePointAdaptation.hh:64-65 and 102-103):
      the square of the first component, then the others are added in order. *)
  Definition norm_square_diff (a b : list N) : N :=
    match map (fun xy => let d := fst xy - snd xy in d * d) (combine a b) with
    | [] => nZ 0
    | s :: r => fold_left (fun acc x => acc + x) r s
    end.

  (** ClosestSourcePointAdaptation.hh:61-71, one iteration of the loop over k: [None] is the initial index -1. *)
  Definition closer {I : Type} (st : option I * N) (cand : I * N) : option I * N :=
    if snd cand <? snd st then (Some (fst cand), snd cand) else st.

  (** ClosestSourcePointAdaptation.hh:61-71: index of the closest source point, and its squared distance; starts at
      {-1, numeric_limits<double>::max()}. *)
  Definition closest {I : Type} (cands : list (I * N)) : option I * N := fold_left closer cands (None, nmax N).

  (** [v[i]] for an index that may still be -1 (ClosestSourcePointAdaptation.hh:72): undefined behaviour. *)
  Definition at_opt {T : Type} (v : list T) (i : option nat) : res T :=
    match i with Some i => at_ v i | None => UB end.

  Fixpoint mapM {A B} (f : A -> res B) (l : list A) : res (list B) :=
    match l with [] => Ok [] | a :: r => do b <- f a; do bs <- mapM f r; Ok (b :: bs) end.

  (** Candidates for one fine point: every coarse quadrature point in order (ClosestSourcePointAdaptation.hh:62-65). *)
  Definition coarse_candidates (coarse : list (list N)) (f : list N) : list (nat * N) :=
    combine (seq 0 (length coarse)) (map (fun c => norm_square_diff f c) coarse).

  (** ClosestSourcePointAdaptation.hh:57-73, one child: the row of child_values was created with as many default values as the parent has
      quadrature points (lines 50-52); writing past it is undefined behaviour. *)
  Definition child_row {T : Type} (dflt : T) (coarse : list (list N)) (parent_values : list T) (fine : list (list N)) : res (list T) :=
    if (length coarse <? length fine)%nat then UB
    else do row <- mapM (fun f => at_opt parent_values (fst (closest (coarse_candidates coarse f)))) fine;
         Ok (row ++ repeat dflt (length coarse - length fine)).

  (** ClosestSourcePointAdaptation.hh:41-75: coarse_to_fine. *)
  Definition coarse_to_fine {T : Type} (dflt : T) (coarse : list (list N)) (children : list (list (list N))) (parent_values : list T)
    : res (list (list T)) :=
    mapM (child_row dflt coarse parent_values) children.

  (** ClosestSourcePointAdaptation.hh:99-109: one fine point j of child i against every coarse point k. *)
  Definition offer (coarse : list (list N)) (st : list (option (nat * nat) * N)) (ijf : (nat * nat) * list N) : list (option (nat * nat) * N) :=
    map (fun cs => closer (snd cs) (fst ijf, norm_square_diff (snd ijf) (fst cs))) (combine coarse st).

  (** The fine points in the order of the loops over i and j (ClosestSourcePointAdaptation.hh:93-98). *)
  Definition numbered (children : list (list (list N))) : list ((nat * nat) * list N) :=
    concat (map (fun ic => map (fun jf => ((fst ic, fst jf), snd jf)) (combine (seq 0 (length (snd ic))) (snd ic)))
                (combine (seq 0 (length children)) children)).

  (** ClosestSourcePointAdaptation.hh:84-122: fine_to_coarse. *)
  Definition fine_to_coarse {T : Type} (coarse : list (list N)) (children : list (list (list N))) (children_values : list (list T))
    : res (list T) :=
    let best := fold_left (offer coarse) (numbered children) (repeat (None, nmax N) (length coarse)) in
    mapM (fun b => match fst b with
                   | Some (i, j) => do row <- at_ children_values i; at_ row j
                   | None => UB
                   end) best.
End Adapt.
