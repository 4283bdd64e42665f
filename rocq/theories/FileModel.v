(** Files of serialised trees: [dump] and [load] of
    src/itertree/itree_serializer/itree_json_serialize.py (313-345, 456-484), reached from
    iTree.dump / iTree.load (itree_main.py:3083-3106, 3125-3148), for a path given as str (open
    file handles are not modelled).

    A file is a list of bytes.  A byte is represented by what it is part of: the first byte of a
    token of SerModel.v ([BTok]), the first byte of a gzip stream ([BGz]), or a further byte of
    the same ([BMore]).  How many further bytes follow is an arbitrary function ([wid], [gwid]).
    Writing can stop after any number of bytes (full disk, crash). *)
From Verif Require Import Base Heap Deep JsonModel SerModel.
Import ListNotations.
Local Open Scope list_scope.

(** the errors of the file functions next to those of the serializer *)
Inductive ferr := FileExistsError | FileNotFoundError | OSErr | EOFError | PyErr (e : exn).
Inductive fres (A : Type) := FOk (a : A) | FErr (e : ferr).
Arguments FOk {A} a.
Arguments FErr {A} e.

Inductive byte := BTok (t : tok) | BGz (l : list byte) | BMore.
Inductive fobj := File (l : list byte) | Dir.
(** the file system: absolute paths *)
Definition disk := string -> option fobj.
Definition put (d : disk) (p : string) (o : option fobj) : disk := fun q => if String.eqb q p then o else d q.
Definition exists_path (d : disk) (p : string) : bool := match d p with Some _ => true | None => false end.
Definition is_dir (d : disk) (p : string) : bool := match d p with Some Dir => true | _ => false end.

Section Files.
  Variable sha : list tok -> nat.
  (** number of bytes after the first one: of a token, of a gzip stream (at least 17: header and trailer) *)
  Variable wid : tok -> nat.
  Variable gwid : list byte -> nat.

  Definition enc1 (t : tok) : list byte := BTok t :: repeat BMore (wid t).
  Definition enc (l : list tok) : list byte := flat_map enc1 l.
  (** bytes.decode and the JSON scanner: complete tokens only; [n]: bytes still expected *)
  Fixpoint dec (n : nat) (l : list byte) : option (list tok) :=
    match l, n with
    | [], O => Some []
    | BTok t :: r, O => option_map (cons t) (dec (wid t) r)
    | BMore :: r, S n => dec n r
    | _, _ => None
    end.
  (** gzip.compress *)
  Definition gzip (l : list byte) : list byte := BGz l :: repeat BMore (17 + gwid l).
  (** gzip.decompress: b'' of b''; BadGzipFile (an OSError) without the two magic bytes; EOFError
      for an incomplete stream.  Bytes behind the stream do not occur here. *)
  Definition gunzip (l : list byte) : fres (list byte) :=
    match l with
    | [] => FOk []
    | [_] => FErr OSErr
    | BGz m :: r => if Nat.eqb (length r) (17 + gwid m) then FOk m else FErr EOFError
    | _ => FErr OSErr
    end.

  (** [dump] (313-345).  [opn]: the error that open(path, 'wb') raises (missing directory, no
      permission), if any; [stop]: the number of bytes after which the write fails with OSError
      or the program ends, if it does.  open truncates the file. *)
  Definition dump_file (h : heap) (n : nat) (f : option (ditem -> bool)) (x : loc) (path : string)
      (pack calc_hash overwrite : bool) (opn : option ferr) (stop : option nat) (d : disk) : disk * fres (option nat) :=
    if exists_path d path && negb overwrite then (d, FErr FileExistsError)
    else if exists_path d path && is_dir d path then (d, FErr FileExistsError)
    else match dumps sha h n f true calc_hash x with
         | None => (d, FErr (PyErr Diverges))
         | Some (Err e) => (d, FErr (PyErr e))
         | Some (Ok text) =>
             let data := if pack then gzip (enc text) else enc text in
             match opn with
             | Some e => (d, FErr e)
             | None =>
                 match stop with
                 | Some k => (put d path (Some (File (firstn k data))), FErr OSErr)
                 | None => (put d path (Some (File data)),
                            FOk (if calc_hash then match text with _ :: THead hd :: _ => hd_hash hd | _ => None end else None))
                 end
             end
         end.

  (** [load] (456-484): reading a directory raises IsADirectoryError (an OSError); only OSError of
      gzip.decompress is caught; text that is no JSON raises ValueError *)
  Definition load_file (path : string) (check_hash load_links : bool) (d : disk) (h : heap) : heap * fres loc :=
    match d path with
    | None => (h, FErr FileNotFoundError)
    | Some Dir => (h, FErr OSErr)
    | Some (File data) =>
        let go (l : list byte) :=
          match dec 0 l with
          | None => (h, FErr (PyErr ValueError))
          | Some text => match loads sha text check_hash load_links h with
                         | (h', Ok y) => (h', FOk y)
                         | (h', Err e) => (h', FErr (PyErr e))
                         end
          end in
        match gunzip data with
        | FOk l => go l
        | FErr OSErr => go data
        | FErr e => (h, FErr e)
        end
    end.
End Files.
