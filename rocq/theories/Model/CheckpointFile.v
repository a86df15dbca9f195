(** The checkpoint file of an XDMFExport: festim/exports/xdmf_export.py:write applied to the log of a run. *)
From Coq Require Import List String.
From Verif Require Import Model.Exports Model.Checkpoint.
Import ListNotations.

Section File.
Context {A F V C : Type}.
(** xdmf_export.py L117-142: write with checkpoint=True (self.file.write is not modelled). *)
Definition write_to (label : string) (old : file A (fval F)) (w : written (A:=A) F V C) : file A (fval F) :=
  match w with
  | WXdmf t f true append => write_checkpoint old label t f append
  | _ => old
  end.
(** The content of the file after everything an export wrote. *)
Definition file_after (label : string) (old : file A (fval F)) (ws : list (written (A:=A) F V C)) : file A (fval F) :=
  fold_left (write_to label) ws old.
End File.
