(** Model of SaveDebugImageEveryNBatches (augmenters/debug.py:1015-1285).

    Simplifications: the folder exists and files can be written; images are stored as they are; drawing is a parameter. *)
From Coq Require Import List ZArith Ascii String DecimalString Decimal.
From Verif Require Import Prelude.
Import ListNotations.
Open Scope Z_scope.

(** "{batch_id:06d}".format(...) (debug.py:1072) for numbers that are not negative: digits, filled up with zeros. *)
Definition six_digits (n : Z) : string :=
  let s := NilZero.string_of_uint (N.to_uint (Z.to_N n)) in
  String.append (String.concat "" (repeat "0"%string (6 - String.length s))) s.
(** The two patterns of file names (debug.py:1072, 1262-1263). *)
Inductive pattern := Numbered | Latest.
(** filename_pattern.format(batch_id=...) (debug.py:1083). *)
Definition filename (p : pattern) (n : Z) : string :=
  match p with Numbered => ("batch_" ++ six_digits n ++ ".png")%string | Latest => "batch_latest.png"%string end.
(** _FolderImageDestination (debug.py:1066-1088): pattern, _batch_id and _filepath within the folder. *)
Record destination := mkD { d_pattern : pattern; d_id : Z; d_path : option string }.
(** debug.py:1071-1077. *)
Definition new_destination (p : pattern) : destination := mkD p (-1) None.
(** debug.py:1080-1084. *)
Definition dest_on_batch (d : destination) : destination :=
  let n := d_id d + 1 in mkD (d_pattern d) n (Some (filename (d_pattern d) n)).
Section Saving.
Variables B I : Type.
(** draw_debug_image (debug.py:1178-1185). *)
Variable draw : B -> res I.
(** The files of the folder (debug.py:1088). *)
Definition folder := string -> option I.
(** imageio.imwrite (debug.py:1087-1088). *)
Definition receive (d : destination) (image : I) (f : folder) : folder :=
  match d_path d with
  | Some p => fun name => if String.eqb name p then Some image else f name
  | None => f
  end.
(** The augmenter: interval and _batch_id of the schedule (debug.py:1122-1131), destinations of _MultiDestination (debug.py:1047-1062). *)
Record saver := mkS { s_interval : Z; s_id : Z; s_dests : list destination }.
(** debug.py:1252-1271 SaveDebugImageEveryNBatches.__init__. *)
Definition new_saver (interval : Z) : saver := mkS interval (-1) [new_destination Numbered; new_destination Latest].
(** debug.py:1174-1192 _SaveDebugImage._augment_batch_, with _EveryNBatchesSchedule.on_batch (debug.py:1127-1130): the
    augmenter and the folder afterwards, and the returned batch. A remainder of 0 raises ZeroDivisionError. *)
Definition save_batch (s : saver) (f : folder) (b : B) : saver * folder * res B :=
  let n := s_id s + 1 in
  if s_interval s =? 0 then (mkS (s_interval s) n (s_dests s), f, Err GenericException)
  else
    let dests := map dest_on_batch (s_dests s) in
    let s := mkS (s_interval s) n dests in
    if n mod s_interval s =? 0 then
      match draw b with
      | Err e => (s, f, Err e)
      | Ok image => (s, fold_left (fun f d => receive d image f) dests f, Ok b)
      end
    else (s, f, Ok b).
(** A sequence of calls of augment_batch_; errors of one call do not hinder the next (debug.py:1174-1192). *)
Fixpoint save_batches (s : saver) (f : folder) (bs : list B) : saver * folder * list (res B) :=
  match bs with
  | [] => (s, f, [])
  | b :: bs => let '(s, f, r) := save_batch s f b in let '(s, f, rs) := save_batches s f bs in (s, f, r :: rs)
  end.
End Saving.
