(** Parameters of soil models as Python values.  A callable is a plain function (def, lambda) or another object
    that can be called: a bound method, functools.partial, a built-in, an instance with __call__ such as an
    interpolator.  LateralModel knows plain functions only. *)
From Coq Require Import Reals List Bool.
From Verif Require Import Base AxialModel LateralModel FieldModel.
Import ListNotations.
Local Open Scope R_scope.

Inductive pyvalue := VFloat (x : R) | VList (l : list R) | VFunction (f : R -> R) | VObject (f : R -> R).

(** core/misc.py 12-28: from_list2x_parse_top_bottom *)
Definition parse (v : pyvalue) : res (R * R) :=
  match v with
  | VFloat x => Ok (x, x)
  | VList [x] => Ok (x, x)
  | VList [x; y] => Ok (x, y)
  | _ => Err TypeError
  end.
(** core/misc.py 32: isinstance(X, type(lambda x: 2)) *)
Definition is_function (v : pyvalue) : option (R -> R) := match v with VFunction f => Some f | _ => None end.
(** core/misc.py 31-36: get_value_at_current_depth *)
Definition current_value (v : pyvalue) (depth height X : R) : res R :=
  match is_function v with
  | Some f => Ok (f X)
  | None => bind (parse v) (fun tb => at_depth (fst tb) (snd tb) depth height)
  end.
(** soilmodels.py 2130-2131 and everywhere: m if isinstance(m, float) else m(X); a list cannot be called *)
Definition multiplier_value (v : pyvalue) (X : R) : res R :=
  match v with VFloat c => Ok c | VFunction f | VObject f => Ok (f X) | VList _ => Err TypeError end.

(** What pydantic sees (callable(v) for the Callable member of the unions, soilmodels.py 1985-2094, 2306-2420) *)
Definition seen (v : pyvalue) : rparam := match v with VFloat x => PNum x | VList l => PList l | VFunction f | VObject f => PFun f end.
Definition value_accepted (number element : range) (v : pyvalue) : bool := field number element true (seen v).

(** The parameters of LateralModel: an object takes the branch that raises TypeError, as a list of wrong length does. *)
Definition held (v : pyvalue) : rparam := match v with VFloat x => PNum x | VList l => PList l | VFunction f => PFun f | VObject _ => PList [] end.
Record vfour := mkVFour { v_X : pyvalue; v_n : pyvalue; v_k : pyvalue; v_Y : pyvalue }.
Definition held_four (f : vfour) : four := mkFour (held (v_X f)) (held (v_n f)) (held (v_k f)) (held (v_Y f)).
Definition held_sand (G0 : pyvalue) (py mt Hb Mb : vfour) (mu : mults) : lateral_model := Custom_pisa_sand (held G0) (held_four py) (held_four mt) (held_four Hb) (held_four Mb) mu.
Definition held_clay (Su G0 : pyvalue) (py mt Hb Mb : vfour) (mu : mults) : lateral_model := Custom_pisa_clay (held Su) (held G0) (held_four py) (held_four mt) (held_four Hb) (held_four Mb) mu.
(** ... and as pydantic accepts it *)
Definition seen_four (f : vfour) : four := mkFour (seen (v_X f)) (seen (v_n f)) (seen (v_k f)) (seen (v_Y f)).
Definition seen_sand (G0 : pyvalue) (py mt Hb Mb : vfour) (mu : mults) : lateral_model := Custom_pisa_sand (seen G0) (seen_four py) (seen_four mt) (seen_four Hb) (seen_four Mb) mu.
Definition seen_clay (Su G0 : pyvalue) (py mt Hb Mb : vfour) (mu : mults) : lateral_model := Custom_pisa_clay (seen Su) (seen G0) (seen_four py) (seen_four mt) (seen_four Hb) (seen_four Mb) mu.
