(** mbtiles/mbtiles.go: the life of a tileset file.  Trusted as in Mbtiles_Model: SQLite; a file is the tables that the
    statements of this package see. *)
From Coq Require Import String ZArith List Lia Bool.
From Verif Require Import GoBase Json Mbtiles_Model Meta_Model Grid_Model.
Import ListNotations.
Open Scope Z_scope.

(** None is a table that does not exist; [fIndex]: the name idx_tile is taken.  A table tiles made elsewhere is taken to
    have a unique index over the coordinates. *)
Record file := mkFile { fTiles : option (list row); fIndex : bool; fMeta : option (list (gstr * gstr)); fGrid : griddb }.
Definition no_grid : griddb := mkGrid false None (fun _ _ _ => None) (fun _ _ _ => []).
(** What SQLite makes of a name without a file at the first statement *)
Definition empty_file : file := mkFile None false None no_grid.
(** Files by name *)
Definition disk := gstr -> option file.
Definition dset (d : disk) (name : gstr) (f : file) : disk := fun n => if seqb n name then Some f else d n.
Definition the_file (d : disk) (name : gstr) : file := match d name with Some f => f | None => empty_file end.

(** mbtiles/mbtiles.go:153-159; hGrid is utfgridCompression when hasUTFGrid is set, the time in nanoseconds *)
Record DB := mkDB { hFormat : Z; hTime : Z; hGrid : option Z }.
(** time.Time.Round(time.Second): half a second rounds up *)
Definition RoundSecond (t : Z) : Z := let r := t mod 1000000000 in if r + r <? 1000000000 then t - r else t + 1000000000 - r.

Section Files.
(** Modification times *)
Variable mtime : gstr -> Z.
(** The row that "limit 1" returns, and the iteration order of the patterns *)
Variable pick : list row -> option row.
Variable order : list (Z * list gstr).

(** mbtiles/mbtiles.go:161-218: a file that does not exist is an error of os.Stat, before any statement would create it *)
Definition OpenDB (d : disk) (name : gstr) : out DB :=
  match d name with
  | None => Err
  | Some f =>
      match fTiles f with
      | None => Err
      | Some t => obind (NewDB order (pick t)) (fun format => obind (NewDBGrid order (fGrid f)) (fun g => Val (mkDB format (RoundSecond (mtime name)) g)))
      end
  end.
(** How a call ends *)
Inductive result A := Returns (a : A) | Fails_ | Panics_ | Exits.
Arguments Returns {A}. Arguments Fails_ {A}. Arguments Panics_ {A}. Arguments Exits {A}.
(** mbtiles/mbtiles.go:220-266 CreateDB.  [md]: nil, or the rows of md.ToMap() as in UpdateMetadata, whose result is
    dropped.  [ev] are the events of the metadata update; the statements before it are taken to fail only on names taken. *)
Definition CreateDB (ev : nat -> event) (d : disk) (name : gstr) (format : Z) (md : option (option (list (gstr * gstr)))) : result DB * disk :=
  let f := the_file d name in
  match fTiles f with
  | Some _ => (Fails_, dset d name f)
  | None =>
      if fIndex f then (Fails_, dset d name (mkFile (Some []) true (fMeta f) (fGrid f)))
      else match fMeta f with
           | Some _ => (Fails_, dset d name (mkFile (Some []) true (fMeta f) (fGrid f)))
           | None =>
               let db := mkDB format (RoundSecond (mtime name)) None in
               match md with
               | None => (Returns db, dset d name (mkFile (Some []) true (Some []) (fGrid f)))
               | Some rows =>
                   let '(e, table) := UpdateMetadata ev [] rows in
                   (match e with RetNil | RetErr => Returns db | Ended => Exits | Panicked => Panics_ end,
                    dset d name (mkFile (Some []) true (Some table) (fGrid f)))
               end
           end
  end.

(** Calls through a database that is open on [name] *)
(** mbtiles/mbtiles.go:268-277 *)
Definition Store (d : disk) (name : gstr) (z x y : Z) (data : option gstr) : bool * disk :=
  let f := the_file d name in
  match fTiles f with
  | None => (false, dset d name f)
  | Some t => match StoreTile t z x y data with Val t' => (true, dset d name (mkFile (Some t') (fIndex f) (fMeta f) (fGrid f))) | _ => (false, dset d name f) end
  end.
(** mbtiles/mbtiles.go:279-288 *)
Definition Read (d : disk) (name : gstr) (z x y : Z) : out (option gstr) := match fTiles (the_file d name) with None => Err | Some t => ReadTile t z x y end.
(** mbtiles/mbtiles.go:450-478 *)
Definition Update (ev : nat -> event) (d : disk) (name : gstr) (rows : option (list (gstr * gstr))) : ending * disk :=
  let f := the_file d name in
  match fMeta f with
  | None => (RetErr, dset d name f)
  | Some old => let '(e, table) := UpdateMetadata ev old rows in (e, dset d name (mkFile (fTiles f) (fIndex f) (Some table) (fGrid f)))
  end.
(** mbtiles/mbtiles.go:370-448; [table_order] is the order in which SQLite returns the rows *)
Definition Meta {L} (decj : gstr -> option (option L)) (table_order : list (gstr * gstr) -> list (gstr * gstr)) (d : disk) (name : gstr) : out (Metadata L) :=
  match fMeta (the_file d name) with
  | None => Err
  | Some rows =>
      match fTiles (the_file d name) with
      | Some t => GetMetadata decj (table_order rows) t
      | None => obind (set_rows decj md0 (table_order rows)) (fun m => if mMaxZoom m =? 0 then Err else Val m)
      end
  end.
End Files.
Arguments Returns {A}. Arguments Fails_ {A}. Arguments Panics_ {A}. Arguments Exits {A}.
(** mbtiles/mbtiles.go:480-502: accessors of an open database *)
Definition TileFormat (h : DB) : Z := hFormat h.
Definition TileFormatString (h : DB) : gstr := FormatString (hFormat h).
Definition ContentTypeOf (h : DB) : gstr := ContentType (hFormat h).
Definition HasUTFGrid (h : DB) : bool := match hGrid h with Some _ => true | None => false end.
Definition UTFGridCompression (h : DB) : Z := match hGrid h with Some c => c | None => UNKNOWN end.
Definition TimeStamp (h : DB) : Z := hTime h.
