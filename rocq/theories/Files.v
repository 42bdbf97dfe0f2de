(** Names of files (parametricmatrixmodels/model.py L1743-1850,
    preprocessing/scaler.py L145-213, conformal/conformalizedmodel.py L1699-1776).

    Simplifications: the file system is a function from names to contents, all
    directories exist and are writable; a path is its string; file objects
    ([IO]) are left out; what is written is what the object serialises to (the
    contents of files are in Serial.v, ScalerFile.v and ConfState.v). Loading
    a name that does not exist (FileNotFoundError) gives None. *)
From Verif Require Import Base.
Local Open Scope string_scope. Local Open Scope list_scope.

(** The argument [file]: a string or a [pathlib.Path]. *)
Inductive file := AsStr (s : string) | AsPath (s : string).
Definition name (f : file) : string := match f with AsStr s => s | AsPath s => s end.
Definition npz : string := ".npz".

Section Disk.
Context {C : Type}.
Definition disk : Type := string -> option C.
Definition write (d : disk) (s : string) (c : C) : disk := fun t => if String.eqb t s then Some c else d t.

(** [numpy.savez] and [numpy.savez_compressed] (numpy/lib/npyio.py, [_savez]):
    [os.fspath(file)], and ".npz" is added if it is not there. *)
Definition savez (d : disk) (f : file) (c : C) : disk :=
  write d (if endswith (name f) npz then name f else append (name f) npz) c.
(** [numpy.load]: the name as it is. *)
Definition np_load (d : disk) (f : file) : option C := d (name f).

(** "if isinstance(file, str): file = file if file.endswith('.npz') else file +
    '.npz'". *)
Definition add_npz (f : file) : file :=
  match f with AsStr s => if endswith s npz then f else AsStr (append s npz) | AsPath _ => f end.

(** [Model.save] L1744-1760 and [Model.save_compressed] L1763-1780. *)
Definition model_save (d : disk) (f : file) (c : C) : disk := savez d (add_npz f) c.
(** [Model.load] L1782-1825, [Model.from_file] L1827-1851. *)
Definition model_load (d : disk) (f : file) : option C := np_load d (add_npz f).
(** scaler.py L145-158, L161-174. *)
Definition scaler_save (d : disk) (f : file) (c : C) : disk := savez d (add_npz f) c.
(** scaler.py L178-191. *)
Definition scaler_load (d : disk) (f : file) : option C := np_load d (add_npz f).
(** conformalizedmodel.py L1698-1712, L1714-1729. *)
Definition conformal_save (d : disk) (f : file) (c : C) : disk := savez d (add_npz f) c.
(** conformalizedmodel.py L1732-1775: no ".npz" is added. *)
Definition conformal_load (d : disk) (f : file) : option C := np_load d f.
End Disk.
