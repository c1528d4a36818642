(** Colours of layers: openpile/core/misc.py 49-69 (generate_color_string) and openpile/construct.py 530-560
    (Layer: the field color and model_post_init).  random.randint(0, n - 1) is an index [i] below [n]. *)
From Coq Require Import List Bool Arith QArith String.
From Verif Require Import Base PileModel.
Import ListNotations.
Local Open Scope string_scope.

(** misc.py 53-66 *)
Definition earth : list string :=
  ["#B4A390"; "#927E75"; "#796363"; "#99A885"; "#D4DBBA"; "#FDEDCF"; "#EEEAC3"; "#F5D498"; "#ECB992"; "#DDA175"; "#AB7B5E"; "#8F6854"].

(** misc.py 49-66; [css4] are the values of matplotlib's CSS4_COLORS *)
Definition colors (css4 : list string) (kind : option string) : res (list string) :=
  match kind with
  | None => Ok css4
  | Some k => if string_dec k "earth" then Ok earth else Err UnboundLocalError
  end.

(** misc.py 67 *)
Definition generate_color (css4 : list string) (kind : option string) (i : nat) : res string :=
  bind (colors css4 kind) (fun l => match nth_error l i with Some c => Ok c | None => Err IndexError end).

(** construct.py 545: seven characters *)
Definition check_color (c : option string) : res (option string) :=
  match c with
  | Some s => if Nat.eqb (String.length s) 7 then Ok (Some s) else Err ValueError
  | None => Ok None
  end.

(** construct.py 530-560: a layer and its colour *)
Definition colored_layer (css4 : list string) (top bottom weight : Q) (color : option string) (i : nat) : res (layer * string) :=
  bind (check_color color) (fun c =>
  bind (make_layer top bottom weight) (fun l =>
  bind (match c with Some s => Ok s | None => generate_color css4 (Some "earth") i end) (fun s => Ok (l, s)))).
