(** Vocabulary for arguments and their errors. *)
From Coq Require Import ZArith QArith List String.
From Verif Require Import Base.Exc Model.Stepsize Model.SympyAst Model.Inputs Model.XdmfInit Spec.XdmfInitSpec.
Local Open Scope string_scope.

(** Classes of errors. *)
Definition type_error (e : exc) : Prop := exists m, e = TypeError m.
Definition value_error (e : exc) : Prop := exists m, e = ValueError m.
Definition attribute_error (e : exc) : Prop := exists m, e = AttributeError m.

(** v is the Python number x (True and False are 1 and 0). *)
Inductive is_number : input -> Q -> Prop :=
| NumInt z : is_number (PInt z) (inject_Z z)
| NumFloat x : is_number (PFloat x) x
| NumTrue : is_number (PBool true) 1
| NumFalse : is_number (PBool false) 0.

(** What stands for a temperature. *)
Inductive is_temperature : input -> option temperature_attr -> Prop :=
| TempNone : is_temperature PNone None
| TempOwn k : is_temperature (PTemperature k) (Some (OwnTemperature k))
| TempNumber v x : is_number v x -> is_temperature v (Some (NewTemperature v))
| TempExpr e : is_temperature (PExpr e) (Some (NewTemperature (PExpr e))).

(** Why an XDMFExport is refused, and with which class of error. *)
Inductive xdmf_refused (field : pyval) (label : option string) (filename mode checkpoint folder : pyval) : exc -> Prop :=
| NoLabel m : label = None -> (forall s, field <> VStr s) -> xdmf_refused field label filename mode checkpoint folder (AttributeError m)
| NoName m : label = None -> filename = VNone -> (forall s l, field = VStr s -> ~ named s l) ->
    xdmf_refused field label filename mode checkpoint folder (AttributeError m)
| BadFolder m : ~ good_folder folder -> xdmf_refused field label filename mode checkpoint folder (TypeError m)
| NameKind m : filename <> VNone -> (forall s, filename <> VStr s) -> xdmf_refused field label filename mode checkpoint folder (TypeError m)
| NameEnd s m : filename = VStr s -> (forall p, s <> p ++ ".xdmf") -> xdmf_refused field label filename mode checkpoint folder (ValueError m)
| BadMode m : ~ good_mode mode -> xdmf_refused field label filename mode checkpoint folder (ValueError m)
| BadCheckpoint m : ~ good_checkpoint checkpoint -> xdmf_refused field label filename mode checkpoint folder (TypeError m).
