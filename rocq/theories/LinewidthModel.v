(** The linewidth of a modulator's driver from measured points of phase noise, and the
    construction of a phase modulator from them.  Definitions only.
    /repo/simulator/fiber/assets/additive_noise.py:19-20, 270-307,
    /repo/simulator/fiber/node_types_subclasses/single_path.py:130-173 and
    /repo/lib/base_classes.py:14-29, 71-76.
    Real numbers instead of floating point numbers.  scipy.optimize.curve_fit is an
    argument: offsets and values to the fitted coefficient. *)
From Coq Require Import Reals List Arith.
From Verif Require Import Base ArrayModel NoiseModel.
Import ListNotations.
Local Open Scope R_scope.

(* _fit_phase_psd_from_points, additive_noise.py lines 293-303: the points are mirrored *)
Definition fit_points (curve_fit : list R -> list R -> res R) (points : list (R * R)) : res R :=
  let offsets := map fst points in
  let offsets := map (fun x => -1 * x) (rev offsets) ++ offsets in
  let dBc := map snd points in
  let dBc := rev dBc ++ dBc in
  curve_fit offsets (map dBc_to_rad2 dBc).
(* get_estimated_FWHM_linewidth_from_points, lines 270-281 *)
Definition estimated_linewidth (curve_fit : list R -> list R -> res R) (points : list (R * R)) : res R :=
  do c <- fit_points curve_fit points; Ok (c * 2 * PI).

(* the keys of parameters_from_name; Unknown is any other text *)
Inductive pm_name := Depth | Frequency | Shift | FwhmLinewidth | Unknown (k : nat).
(* parameter_names.index(name), line 150 *)
Definition pm_index (n : pm_name) : res nat :=
  match n with Depth => Ok 0%nat | Frequency => Ok 1%nat | Shift => Ok 2%nat | FwhmLinewidth => Ok 3%nat | Unknown _ => Err ValueError end.
(* l[i] = v *)
Fixpoint set_item (l : list R) (i : nat) (v : R) : res (list R) :=
  match l, i with
  | [], _ => Err IndexError
  | _ :: r, O => Ok (v :: r)
  | x :: r, S j => do r' <- set_item r j v; Ok (x :: r')
  end.
(* d['FWHM_linewidth'] = v: an entry keeps its place, a new one comes last *)
Fixpoint set_linewidth (d : list (pm_name * R)) (v : R) : list (pm_name * R) :=
  match d with
  | [] => [(FwhmLinewidth, v)]
  | (FwhmLinewidth, _) :: r => (FwhmLinewidth, v) :: r
  | e :: r => e :: set_linewidth r v
  end.
(* base_classes.py lines 23-25, 71-76 *)
Fixpoint set_by_names (l : list R) (d : list (pm_name * R)) : res (list R) :=
  match d with
  | [] => Ok l
  | (n, v) :: r => do i <- pm_index n; do l <- set_item l i v; set_by_names l r
  end.
(* default_parameters, single_path.py line 141 *)
Definition pm_defaults : list R := [1; 12 * 10 ^ 9; 2 / 100; 0].
(* PhaseModulator(phase_noise_points=points, parameters=by_list, parameters_from_name=by_name): the
   parameters of the new component and the arguments afterwards.  The list of parameters is kept as
   it is given, so that it is the component's own.  Line 173 reads entry 3 of the parameters *)
Definition new_phase_modulator (curve_fit : list R -> list R -> res R) (points : option (list (R * R))) (by_list : option (list R)) (by_name : option (list (pm_name * R)))
  : res (list R * option (list R) * option (list (pm_name * R))) :=
  do args <- match points with
             | None => Ok (by_list, by_name)
             | Some ps =>
                 do w <- estimated_linewidth curve_fit ps;
                 match by_list, by_name with
                 | Some l, _ => do l' <- set_item l 3 w; Ok (Some l', by_name)
                 | None, Some d => Ok (None, Some (set_linewidth d w))
                 | None, None => Ok (None, None)
                 end
             end;
  do params <- match args with
               | (Some l, _) => Ok l
               | (None, Some d) => set_by_names pm_defaults d
               | (None, None) => Ok pm_defaults
               end;
  do _ <- of_option IndexError (nth_error params 3);
  Ok (params, fst args, snd args).
