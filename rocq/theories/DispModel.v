(** Model of how notebooks display an updater (src/qinfer/smc.py 862-906) and a model (src/qinfer/abstract_model.py 199-216).
    Templates are written out with their arguments in place.  [id(self)] in hexadecimal is an argument; class names are those of
    [type(self).__name__]. *)
From Coq Require Import String Ascii NArith ZArith.
From Verif Require Import Base Ext SmcModel PartModel UtilModel FmtModel LtxModel.
From Coq Require Import List.
Close Scope string_scope.
Open Scope list_scope.

(** The line break between joined cells (smc.py 888 and 894: ["\n"] in an ordinary string) *)
Definition newline : string := String "010" EmptyString.
(** smc.py 889 and 895, "<td>${}$</td>" *)
Definition td_cell (s : string) : string := ("<td>$" ++ s ++ "$</td>")%string.
(** smc.py 878-886: a model class followed by the chain of the models below it *)
Definition model_title (model : string) (chain : list string) : string :=
  match chain with
  | [] => model
  | _ => (model ++ "</strong> (based on <strong>" ++ join "</strong>, <strong>" chain ++ "</strong>)<strong>")%string
  end.
(** smc.py 894-901: the root of a negative number is NaN, which format_uncertainty cannot convert to an integer *)
Definition value_cell (mu var : R) : res string :=
  if Rltb var 0 then Err ValueError else bind (format_uncertainty mu (sqrt var) 4) (fun s => Ok (td_cell s)).
(** smc.py 862-906; [d] model parameters, [zip] stops with the shorter list *)
Definition updater_html (cls model : string) (chain names : list string) (d : nat) (w : list R) (l : list loc) (resamples : nat) : res string :=
  bind (map_ok (fun p => value_cell (fst p) (snd p)) (combine (est_mean d w l) (map (fun k => particle_cov w l k k) (seq 0 d)))) (fun values =>
  Ok ("
        <strong>" ++ cls ++ "</strong> for model of type <strong>" ++ model_title model chain ++ "</strong>:
        <table>
            <caption>Current estimated parameters</caption>
            <thead>
                <tr>
                    " ++ join newline (map td_cell names) ++ "
                </tr>
            </thead>
            <tbody>
                <tr>
                    " ++ join newline values ++ "
                </tr>
            </tbody>
        </table>
        <em>Resample count:</em> " ++ show_int (Z.of_nat resamples) ++ "
        ")%string).

(** ** abstract_model.py 199-216 *)
(** A model object as displayed: class name, address in hexadecimal, number of parameters *)
Record shown := { sh_name : string; sh_addr : string; sh_params : nat }.
(** 200-206 *)
Definition model_line (m : shown) : string :=
  ("
            <strong>" ++ sh_name m ++ "</strong> at 0x" ++ sh_addr m ++ ": " ++ show_int (Z.of_nat (sh_params m)) ++ " model parameter" ++
   (if Nat.eqb (sh_params m) 1 then "" else "s") ++ "
        ")%string.
(** 213 *)
Definition li_item (c : shown) : string := ("<li>" ++ model_line c ++ "</li>")%string.
(** 199-216; the separator of the items is written [r"\n"], a backslash and an n *)
Definition model_html (m : shown) (chain : list shown) (suppress_base : bool) : string :=
  if negb suppress_base && negb (Nat.eqb (List.length chain) 0) then
    (model_line m ++ "<br>
            <p>Model chain:</p>
            <ul>" ++ join "\n" (map li_item (rev chain)) ++ "
            </ul>
            ")%string
  else model_line m.
