(** Model of GetFileSize, DoesFileExist, RenameFile, RemoveFile, FileInfo, GetFileList and the system call of GetExePath of
    include/cybozu/file.hpp (POSIX branches) over a tree of files, directories and symbolic links.  Path resolution, stat, rename,
    unlink and opendir follow POSIX as Linux implements it; hard links and mount points are not modelled. *)
Require Import Verif.Common.
Require Verif.FileModel Verif.FileNameModel.
Import ListNotations.
Local Open Scope Z_scope.

(** ** The kernel *)
(** a location is the list of the names that lead to it from the root; [Other] is a device, pipe or socket *)
Inductive node := File (data : list Z) | Dir | Link (target : list Z) | Other.
Definition loc := list (list Z).
Definition fsys := loc -> option node.
Definition bytes_dec : forall a b : list Z, {a = b} + {a <> b} := list_eq_dec Z.eq_dec.
Definition loc_dec : forall a b : loc, {a = b} + {a <> b} := list_eq_dec bytes_dec.
Definition sl : Z := 47.
(** the parts between the slashes *)
Fixpoint split (s : list Z) : list (list Z) :=
  match s with
  | [] => [[]]
  | c :: r => if c =? sl then [] :: split r else match split r with x :: y => (c :: x) :: y | [] => [[c]] end
  end.
Definition dot1 : list Z := [46].
Definition dot2 : list Z := [46; 46].
Definition step (p : loc) (c : list Z) : loc :=
  if bytes_dec c [] then p else if bytes_dec c dot1 then p else if bytes_dec c dot2 then removelast p else p ++ [c].
Definition base (cwd : loc) (s : list Z) : loc := match s with c :: _ => if c =? sl then [] else cwd | [] => cwd end.
(** follow the parts from p, at most n symbolic links; a link in the last part is followed too *)
Fixpoint walk (fs : fsys) (n : nat) {struct n} : loc -> list (list Z) -> option loc :=
  fix go (p : loc) (cs : list (list Z)) {struct cs} : option loc :=
  match cs with
  | [] => Some p
  | c :: r =>
      match fs p with
      | Some Dir =>
          match fs (step p c) with
          | Some (Link t) =>
              match n with
              | O => None
              | S n' => if bytes_dec t [] then None else walk fs n' (base p t) (split t ++ r)
              end
          | _ => go (step p c) r
          end
      | _ => None
      end
  end.
Definition MAXSYMLINKS : nat := 40.
Definition resolve (fs : fsys) (cwd : loc) (s : list Z) : option loc :=
  if bytes_dec s [] then None else walk fs MAXSYMLINKS (base cwd s) (split s).
(** stat *)
Definition stat (fs : fsys) (cwd : loc) (s : list Z) : option node :=
  match resolve fs cwd s with Some p => fs p | None => None end.
Fixpoint drop_slashes (r : list Z) : list Z := match r with c :: r' => if c =? sl then drop_slashes r' else r | [] => [] end.
Definition trim (s : list Z) : list Z := rev (drop_slashes (rev s)).
(** the entry that rename and unlink act on: the last part is not followed; "." and ".." are refused; were there slashes at the end? *)
Definition place (fs : fsys) (cwd : loc) (s : list Z) : option (loc * bool) :=
  let t := trim s in
  if bytes_dec t [] then None else
  let c := last (split t) [] in
  if bytes_dec c dot1 then None else if bytes_dec c dot2 then None else
  match walk fs MAXSYMLINKS (base cwd s) (removelast (split t)) with
  | Some p => match fs p with Some Dir => Some (p ++ [c], Nat.ltb (length t) (length s)) | _ => None end
  | None => None
  end.
(** q = p ++ r *)
Fixpoint under (p q : loc) : option loc :=
  match p, q with
  | [], _ => Some q
  | a :: p', b :: q' => if bytes_dec a b then under p' q' else None
  | _ :: _, [] => None
  end.
Definition move (fs : fsys) (f t : loc) : fsys := fun q =>
  match under t q with
  | Some r => fs (f ++ r)
  | None => match under f q with Some _ => None | None => fs q end
  end.
(** rename; [empty] tells whether the directory at a location is empty; ok: no other failure (permission, another file system) *)
Definition sys_rename (empty : fsys -> loc -> bool) (fs : fsys) (cwd : loc) (from to : list Z) (ok : bool) : bool * fsys :=
  match place fs cwd from, place fs cwd to with
  | Some (f, sf), Some (t, st) =>
      match fs f with
      | None => (false, fs)
      | Some nf =>
          let isdir := match nf with Dir => true | _ => false end in
          if (sf || st) && negb isdir then (false, fs) else
          if loc_dec f t then (ok, fs) else
          match under f t with
          | Some _ => (false, fs)
          | None =>
              let free := match fs t with
                | None => true
                | Some Dir => isdir && empty fs t
                | Some _ => negb isdir
                end in
              if ok && free then (true, move fs f t) else (false, fs)
          end
      end
  | _, _ => (false, fs)
  end.
(** unlink *)
Definition sys_unlink (fs : fsys) (cwd : loc) (s : list Z) (ok : bool) : bool * fsys :=
  match place fs cwd s with
  | Some (p, slash) =>
      match fs p with
      | None | Some Dir => (false, fs)
      | Some _ => if ok && negb slash then (true, fun q => if loc_dec q p then None else fs q) else (false, fs)
      end
  | None => (false, fs)
  end.

(** ** The functions; std::string::c_str() is [FileModel.cut] *)
(** file.hpp:448-459 GetFileSize; dsize: st_size of what is not a regular file *)
Definition GetFileSize (dsize : node -> Z) (fs : fsys) (cwd : loc) (name : list Z) : res Z :=
  match stat fs cwd (FileModel.cut name) with
  | Some (File d) => Ok (zlen d)
  | Some n => Ok (dsize n)
  | None => Exn
  end.
(** file.hpp:464-479 DoesFileExist *)
Definition DoesFileExist (fs : fsys) (cwd : loc) (path : list Z) : bool :=
  match path with
  | [] => false
  | _ =>
      let c := last path 0 in
      let p := if (c =? 47) || (c =? 92) then removelast path else path in
      match stat fs cwd (FileModel.cut p) with Some _ => true | None => false end
  end.
(** file.hpp:481-494 RenameFile; other processes may change the files between the test and the call: [between] *)
Definition RenameFile (empty : fsys -> loc -> bool) (fs : fsys) (cwd : loc) (from to : list Z) (between : fsys -> fsys) (ok : bool) : res unit * fsys :=
  if DoesFileExist fs cwd to then (Exn, fs) else
  let fs := between fs in
  let '(isOK, fs) := sys_rename empty fs cwd (FileModel.cut from) (FileModel.cut to) ok in
  ((if (isOK : bool) then Ok tt else Exn), fs).
(** file.hpp:499-509 RemoveFile *)
Definition RemoveFile (fs : fsys) (cwd : loc) (name : list Z) (ok : bool) : res unit * fsys :=
  let '(isOK, fs) := sys_unlink fs cwd (FileModel.cut name) ok in
  ((if (isOK : bool) then Ok tt else Exn), fs).
(** file.hpp:516-536 FileInfo; DT_UNKNOWN, DT_DIR, DT_REG *)
Definition FileInfo : Type := list Z * Z.
Definition DT_UNKNOWN : Z := 0.
Definition DT_DIR : Z := 4.
Definition DT_REG : Z := 8.
Definition DT_LNK : Z := 10.
(** file.hpp:524 *)
Definition isUnknown (fi : FileInfo) : bool := snd fi =? DT_UNKNOWN.
(** file.hpp:530-533 *)
Definition verify (fi : FileInfo) : res unit := if isUnknown fi then Exn else Ok tt.
(** file.hpp:525-526 *)
Definition isDirectory (fi : FileInfo) : res bool := let! _ := verify fi in Ok (snd fi =? DT_DIR).
Definition isFile (fi : FileInfo) : res bool := let! _ := verify fi in Ok (snd fi =? DT_REG).
(** file.hpp:541-549 filterAndPush; cond is the caller's function and may throw *)
Definition filterAndPush (list_ : list FileInfo) (fi : FileInfo) (ext : list Z) (cond : list Z -> list Z -> res bool) : res (list FileInfo) :=
  if bytes_dec (fst fi) dot1 then Ok list_ else if bytes_dec (fst fi) dot2 then Ok list_ else
  let! b := cond (fst fi) ext in Ok (if b then list_ ++ [fi] else list_).
(** file.hpp:608-615 the loop; d_type is stored in a uint8_t.  The list is filled in place, also when cond throws *)
Fixpoint list_loop (es : list FileInfo) (l : list FileInfo) (ext : list Z) (cond : list Z -> list Z -> res bool) : res bool * list FileInfo :=
  match es with
  | [] => (Ok true, l)
  | (n, ty) :: es =>
      match filterAndPush l (n, ty mod 256) ext cond with
      | Ok l => list_loop es l ext cond
      | _ => (Exn, l)
      end
  end.
Inductive dirEvent := OpenDir | CloseDir.
(** opendir follows links; then readdir returns the entries it has, and 0 *)
Definition sys_opendir (readdir : loc -> list FileInfo) (fs : fsys) (cwd : loc) (dir : list Z) (ok : bool) : option (list FileInfo) :=
  match resolve fs cwd dir with
  | Some d => match fs d with Some Dir => if ok then Some (readdir d) else None | _ => None end
  | None => None
  end.
(** file.hpp:561-617 GetFileList; the destructor of Handle closes the directory on every way out *)
Definition GetFileList (readdir : loc -> list FileInfo) (fs : fsys) (cwd : loc) (ok : bool) (l : list FileInfo) (dir ext : list Z)
  (cond : list Z -> list Z -> res bool) : res bool * list FileInfo * list dirEvent :=
  match sys_opendir readdir fs cwd (FileModel.cut dir) ok with
  | None => (Ok false, l, [])
  | Some es => let '(r, l) := list_loop es l ext cond in (r, l, [OpenDir; CloseDir])
  end.
(** file.hpp:619-624 *)
Definition GetFileListOf (readdir : loc -> list FileInfo) (fs : fsys) (cwd : loc) (ok : bool) (dir ext : list Z)
  (cond : list Z -> list Z -> res bool) : res (list FileInfo) :=
  match GetFileList readdir fs cwd ok [] dir ext cond with
  | (Ok true, fl, _) => Ok fl
  | _ => Exn
  end.
(** file.hpp:397-444 GetExePath on Linux: readlink stores at most 4094 bytes and reports how many *)
Definition GetExePath (target : option (list Z)) (baseName0 : list Z) : list Z * list Z :=
  match target with
  | None => ([], baseName0)
  | Some t => FileNameModel.GetExePath (firstn (Z.to_nat (4096 - 2)) t) baseName0
  end.
