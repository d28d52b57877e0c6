(** /repo/render/3mf.go: Create3MF, new3MF, model.Create, relationships: the document and the steps that write it.
    xml and zip encoding are left abstract: a part of the archive is its name and the list of the pieces written to it. *)
From Coq Require Import String List Arith Bool DecimalString.
From Verif Require Import Prelude RenderIOModel ThreeMFModel.
Import ListNotations.
Local Open Scope string_scope.

(** strconv.Itoa of a natural number *)
Definition itoa (n : nat) : string := NilZero.string_of_uint (Nat.to_uint n).
(** 3mf.go:13-18 *)
Definition unit_millimeter : string := "millimeter".
Definition xml_schema : string := "http://schemas.microsoft.com/3dmanufacturing/core/2015/02".
Definition xml_model_schema : string := "http://schemas.microsoft.com/3dmanufacturing/2013/01/3dmodel".
Definition model_file : string := "3D/3dmodel.model".
Definition rels_file : string := "_rels/.rels".
Definition types_file : string := "[Content_Types].xml".

(** 3mf.go:81-95 mf3object with all its attributes *)
Record xobject (V : Type) := XObj { xo_id : nat; xo_name : string; xo_part : string; xo_pid : nat; xo_pindex : nat; xo_type : string; xo_verts : list V; xo_tris : list (nat * nat * nat) }.
Arguments XObj {V}. Arguments xo_id {V}. Arguments xo_name {V}. Arguments xo_part {V}. Arguments xo_pid {V}. Arguments xo_pindex {V}. Arguments xo_type {V}. Arguments xo_verts {V}. Arguments xo_tris {V}.
(** 3mf.go:58-80 model, resources, item *)
Record document (V : Type) := Doc { d_unit : string; d_lang : string; d_schema : string; d_meta : list (string * string); d_objects : list (xobject V); d_build : list nat }.
Arguments Doc {V}. Arguments d_unit {V}. Arguments d_lang {V}. Arguments d_schema {V}. Arguments d_meta {V}. Arguments d_objects {V}. Arguments d_build {V}.
(** 3mf.go:145-160: PID and PIndex are not set *)
Definition xobj {V} (o : mf3object V) : xobject V := XObj (o_id o) (o_name o) (o_name o ++ "-" ++ itoa (o_id o)) 0 0 "model" (o_vertices o) (o_triangles o).
(** 3mf.go:20-25, 46-56: new3MF's fixed parts, for the metadata given *)
Definition document_of {V} (meta : list (string * string)) (m : model3mf V) : document V :=
  Doc unit_millimeter "en-US" xml_schema
    (meta ++ [("generator", "Generated by github.com/soypat/sdf. Please report bugs."); ("Title", "SDF")])
    (map xobj (m_objects m)) (m_build m).

(** What is written into a part: xml.Header, the model, relationships() with targets, types and ids (3mf.go:222-238),
    mf3Content (3mf.go:240-244: default extensions with their content types) *)
Inductive piece (V : Type) :=
| PHeader
| PModel (d : document V)
| PRels (l : list (string * string * string))
| PTypes (l : list (string * string)).
Arguments PHeader {V}. Arguments PModel {V}. Arguments PRels {V}. Arguments PTypes {V}.
Definition relationships {V} : piece V := PRels [(model_file, xml_model_schema, "rel0")].
Definition content_types {V} : piece V :=
  PTypes [("model", "application/vnd.ms-package.3dmanufacturing-3dmodel+xml"); ("rels", "application/vnd.openxmlformats-package.relationships+xml")].

(** An archive: its parts in order and whether the central directory is written. *)
Record archive (V : Type) := Archive { ar_parts : list (string * list (piece V)); ar_closed : bool }.
Arguments Archive {V}. Arguments ar_parts {V}. Arguments ar_closed {V}.
Inductive step (V : Type) := SEntry (name : string) | SWrite (p : piece V) | SClose.
Arguments SEntry {V}. Arguments SWrite {V}. Arguments SClose {V}.
Definition apply_step {V} (a : archive V) (s : step V) : archive V :=
  match s with
  | SEntry n => Archive (ar_parts a ++ [(n, [])]) (ar_closed a)
  | SWrite p => Archive (removelast (ar_parts a) ++ match rev (ar_parts a) with [] => [] | (n, l) :: _ => [(n, (l ++ [p])%list)] end) (ar_closed a)
  | SClose => Archive (ar_parts a) true
  end.
(** 3mf.go:178-219: the calls in their order *)
Definition create_steps {V} (d : document V) : list (step V) :=
  [SEntry model_file; SWrite PHeader; SWrite (PModel d);
   SEntry rels_file; SWrite PHeader; SWrite relationships;
   SEntry types_file; SWrite content_types; SClose].
(** Each call fails or not ([fails] says which); the first failing one makes Create return its error (None). *)
Fixpoint run_steps {V} (fails : nat -> bool) (i : nat) (a : archive V) (l : list (step V)) : option (archive V) :=
  match l with
  | [] => Some a
  | s :: r => if fails i then None else run_steps fails (S i) (apply_step a s) r
  end.
(** The file on the disk afterwards.  Nothing is claimed about it once a call has failed, or when the deferred fp.Close
    (line 175), whose result is dropped, fails. *)
Inductive on_disk (V : Type) := Untouched | Unknown | File (a : archive V).
Arguments Untouched {V}. Arguments Unknown {V}. Arguments File {V}.
(** 3mf.go:170-217 model.Create; call 0 is os.Create, the boolean tells whether an error is returned. *)
Definition create_file {V} (fails : nat -> bool) (close_ok : bool) (d : document V) : on_disk V * bool :=
  if fails 0 then (Unknown, true)
  else match run_steps fails 1 (Archive [] false) (create_steps d) with
       | Some a => (if close_ok then File a else Unknown, false)
       | None => (Unknown, true)
       end.
(** 3mf.go:30-44 Create3MF, for a renderer whose calls return [rs]; None if RenderAll does not end.  The error of
    AddObject is printed and dropped. *)
Definition create_3mf {V} (veq : V -> V -> bool) (rs : list (list (V * V * V) * rerr)) (fails : nat -> bool) (close_ok : bool) : option (on_disk V * bool) :=
  match render_all [] rs with
  | None => None
  | Some (_, true) => Some (Untouched, true)
  | Some (ts, false) => Some (create_file fails close_ok (document_of [("author", "anonymous")] (fst (add_object veq "SDFMesh" ts new_3mf))))
  end.
