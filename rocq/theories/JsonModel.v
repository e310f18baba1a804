(** Model of include/cybozu/json.hpp: Json::Value, a tagged union that owns its string, array or
    object on the heap.
    A heap is a list of cells; an address is a position and is never used twice, so that every use
    of freed memory is seen as UB.  A std::string, an Array (std::vector) or an Object (std::map, its
    entries in key order) is one cell with its own buffers and nodes.  Every allocation may fail:
    a schedule says which one does (std::bad_alloc).
    Cell 0 is the stack frame of the program: the array of its variables of type Value. *)
Require Import Verif.Common.

(** json.hpp:17-24 Type *)
Inductive ty := T_Null | T_String | T_Object | T_Array | T_Number | T_Bool.
(** json.hpp:27-36 members of Value: the tag and the union (a pointer, a bool or the bits of a double
    as ptn_; the unused bytes of a bool read as 0) *)
Record val := V { type_ : ty; ptn_ : Z }.
Definition addr (v : val) : nat := Z.to_nat (ptn_ v).

(** Dead: not allocated (any more).  Raw: storage of a new-expression whose constructor runs *)
Inductive cell := Dead | Raw | CStr (s : list Z) | CArr (vs : list val) | CObj (kvs : list (list Z * val)).
Definition heap := list cell.
Definition cellat (h : heap) (p : nat) : cell := nth p h Dead.
(** the next allocation fails? *)
Definition take (fs : list bool) : bool * list bool := match fs with [] => (false, []) | f :: fs => (f, fs) end.

(** operator delete of the storage of a new-expression whose constructor threw *)
Definition free_raw (h : heap) (p : nat) : res heap := match cellat h p with Raw => Ok (upd h p Dead) | _ => UB end.
(** the constructor of a new-expression is done *)
Definition init_raw (h : heap) (p : nat) (c : cell) : res heap := match cellat h p with Raw => Ok (upd h p c) | _ => UB end.

(** None: std::bad_alloc was thrown *)
Definition result (A : Type) := res (heap * list bool * option A).

(** json.hpp:51-60 new std::string(str): the storage, then the characters *)
Definition new_string (h : heap) (fs : list bool) (s : list Z) : result nat :=
  let (f, fs) := take fs in
  if f then Ok (h, fs, None) else
  let p := length h in
  let h := h ++ [Raw] in
  let (f, fs) := take fs in
  if f then let! h := free_raw h p in Ok (h, fs, None)
  else let! h := init_raw h p (CStr s) in Ok (h, fs, Some p).

(** destruction of the elements of a container *)
Fixpoint destroy_all (ds : heap -> val -> res heap) (h : heap) (vs : list val) : res heap :=
  match vs with [] => Ok h | v :: vs => let! h := ds h v in destroy_all ds h vs end.
(** json.hpp:38-45 ~Value; delete of an Array or Object destroys its elements first *)
Fixpoint destroy (n : nat) (h : heap) (v : val) : res heap :=
  match n with
  | O => Fuel
  | S n =>
    match type_ v with
    | T_String => match cellat h (addr v) with CStr _ => Ok (upd h (addr v) Dead) | _ => UB end
    | T_Object =>
      match cellat h (addr v) with
      | CObj kvs => let! h := destroy_all (destroy n) h (map snd kvs) in Ok (upd h (addr v) Dead)
      | _ => UB
      end
    | T_Array =>
      match cellat h (addr v) with
      | CArr vs => let! h := destroy_all (destroy n) h vs in Ok (upd h (addr v) Dead)
      | _ => UB
      end
    | _ => Ok h
    end
  end.

(** copy constructor of std::vector: element by element; if one throws, those made before are destroyed *)
Fixpoint copy_vec (cp : heap -> list bool -> val -> result val) (ds : heap -> val -> res heap)
  (h : heap) (fs : list bool) (done vs : list val) : result (list val) :=
  match vs with
  | [] => Ok (h, fs, Some done)
  | v :: vs =>
    let! (h, fs, r) := cp h fs v in
    match r with
    | Some v' => copy_vec cp ds h fs (done ++ [v']) vs
    | None => let! h := destroy_all ds h done in Ok (h, fs, None)
    end
  end.
(** copy constructor of std::map: per entry the node, the key, then the value; the same on an exception *)
Fixpoint copy_map (cp : heap -> list bool -> val -> result val) (ds : heap -> val -> res heap)
  (h : heap) (fs : list bool) (done kvs : list (list Z * val)) : result (list (list Z * val)) :=
  match kvs with
  | [] => Ok (h, fs, Some done)
  | (k, v) :: kvs =>
    let (f1, fs) := take fs in
    if f1 then let! h := destroy_all ds h (map snd done) in Ok (h, fs, None) else
    let (f2, fs) := take fs in
    if f2 then let! h := destroy_all ds h (map snd done) in Ok (h, fs, None) else
    let! (h, fs, r) := cp h fs v in
    match r with
    | Some v' => copy_map cp ds h fs (done ++ [(k, v')]) kvs
    | None => let! h := destroy_all ds h (map snd done) in Ok (h, fs, None)
    end
  end.
(** json.hpp:66-70 Value(const Array&): new Array(arr): the storage, the buffer of the vector, the elements *)
Definition new_array (cp : heap -> list bool -> val -> result val) (ds : heap -> val -> res heap)
  (h : heap) (fs : list bool) (vs : list val) : result val :=
  let (f, fs) := take fs in
  if f then Ok (h, fs, None) else
  let p := length h in
  let h := h ++ [Raw] in
  let (f, fs) := take fs in
  if f then let! h := free_raw h p in Ok (h, fs, None) else
  let! (h, fs, r) := copy_vec cp ds h fs [] vs in
  match r with
  | None => let! h := free_raw h p in Ok (h, fs, None)
  | Some vs' => let! h := init_raw h p (CArr vs') in Ok (h, fs, Some (V T_Array (Z.of_nat p)))
  end.
(** json.hpp:71-75 Value(const Object&) *)
Definition new_object (cp : heap -> list bool -> val -> result val) (ds : heap -> val -> res heap)
  (h : heap) (fs : list bool) (kvs : list (list Z * val)) : result val :=
  let (f, fs) := take fs in
  if f then Ok (h, fs, None) else
  let p := length h in
  let h := h ++ [Raw] in
  let! (h, fs, r) := copy_map cp ds h fs [] kvs in
  match r with
  | None => let! h := free_raw h p in Ok (h, fs, None)
  | Some kvs' => let! h := init_raw h p (CObj kvs') in Ok (h, fs, Some (V T_Object (Z.of_nat p)))
  end.
(** json.hpp:81-92 Value(const Value&) *)
Fixpoint copy (n : nat) (h : heap) (fs : list bool) (v : val) : result val :=
  match n with
  | O => Fuel
  | S n =>
    match type_ v with
    | T_Null => Ok (h, fs, Some (V T_Null 0))
    | T_String =>
      match cellat h (addr v) with
      | CStr s => let! (h, fs, r) := new_string h fs s in
                  Ok (h, fs, option_map (fun p => V T_String (Z.of_nat p)) r)
      | _ => UB
      end
    | T_Object => match cellat h (addr v) with CObj kvs => new_object (copy n) (destroy n) h fs kvs | _ => UB end
    | T_Array => match cellat h (addr v) with CArr vs => new_array (copy n) (destroy n) h fs vs | _ => UB end
    | T_Number => Ok (h, fs, Some (V T_Number (ptn_ v)))
    | T_Bool => Ok (h, fs, Some (V T_Bool (ptn_ v)))
    end
  end.
(** the recursion ends after at most as many levels as there are cells (proved) *)
Definition depth (h : heap) : nat := S (length h).

(** ** References to values: element i of the cell p *)
Definition kids (c : cell) : option (list val) :=
  match c with CArr vs => Some vs | CObj kvs => Some (map snd kvs) | _ => None end.
Definition set_kid (c : cell) (i : nat) (v : val) : cell :=
  match c with
  | CArr vs => CArr (upd vs i v)
  | CObj kvs => CObj (match nth_error kvs i with Some (k, _) => upd kvs i (k, v) | None => kvs end)
  | c => c
  end.
Definition read (h : heap) (r : nat * nat) : res val :=
  match kids (cellat h (fst r)) with
  | Some vs => match nth_error vs (snd r) with Some v => Ok v | None => UB end
  | None => UB
  end.
Definition write (h : heap) (r : nat * nat) (v : val) : res heap :=
  let! _ := read h r in Ok (upd h (fst r) (set_kid (cellat h (fst r)) (snd r) v)).
(** json.hpp:101-102 getObject, getArray (the assertions as UB), then the element with number i *)
Definition enter (h : heap) (v : val) : res nat :=
  match type_ v, cellat h (addr v) with
  | T_Array, CArr _ | T_Object, CObj _ => Ok (addr v)
  | _, _ => UB
  end.
(** variable x, then getArray()[i] / an entry of getObject(), and so on *)
Fixpoint resolve (h : heap) (p : nat) (path : list nat) : res (nat * nat) :=
  match path with
  | [] => UB
  | [i] => let! _ := read h (p, i) in Ok (p, i)
  | i :: path => let! v := read h (p, i) in let! q := enter h v in resolve h q path
  end.

(** json.hpp:76-80 swap(rhs): tag and union *)
Definition swap_val (a b : val) : val * val :=
  (V (type_ b) (ptn_ b), V (type_ a) (ptn_ a)).
(** json.hpp:106-111 operator=: Value tmp(rhs); swap( tmp ); ~tmp *)
Definition assign_ref (h : heap) (fs : list bool) (dst : nat * nat) (rhs : val) : result unit :=
  let! (h, fs, r) := copy (depth h) h fs rhs in
  match r with
  | None => Ok (h, fs, None)
  | Some tmp =>
    let! d := read h dst in
    let (d, tmp) := swap_val d tmp in
    let! h := write h dst d in
    let! h := destroy (depth h) h tmp in
    Ok (h, fs, Some tt)
  end.

(** what a Value can be made of directly: json.hpp:37, 46-65 *)
Inductive lit := LNull | LNum (bits : Z) | LBool (b : bool) | LStr (s : list Z).
Definition make (h : heap) (fs : list bool) (l : lit) : result val :=
  match l with
  | LNull => Ok (h, fs, Some (V T_Null 0))
  | LNum d => Ok (h, fs, Some (V T_Number d))
  | LBool b => Ok (h, fs, Some (V T_Bool (if b then 1 else 0)))
  | LStr s => let! (h, fs, r) := new_string h fs s in Ok (h, fs, option_map (fun p => V T_String (Z.of_nat p)) r)
  end.

(** the statements of a program; a path names a variable and then elements *)
Inductive op :=
| Declare (l : lit)                       (** Value v(l); *)
| DeclareCopy (src : list nat)            (** Value v(src); *)
| DeclareArray (srcs : list (list nat))   (** Array a; a.push_back(src) ...; Value v(a); *)
| DeclareObject (srcs : list (list Z * list nat))  (** Object o; o[key] = src ...; Value v(o);  keys in increasing order *)
| Assign (dst src : list nat)             (** dst = src; *)
| AssignLit (dst : list nat) (l : lit)    (** dst = Value(l); *)
| Swap (a b : list nat)                   (** a.swap(b); *)
| Leave.                                  (** the variable declared last goes out of scope *)

Definition push_var (h : heap) (v : val) : res heap :=
  match cellat h 0 with CArr vs => Ok (upd h 0 (CArr (vs ++ [v]))) | _ => UB end.
Fixpoint reads (h : heap) (paths : list (list nat)) : res (list val) :=
  match paths with
  | [] => Ok []
  | p :: ps => let! r := resolve h 0 p in let! v := read h r in let! vs := reads h ps in Ok (v :: vs)
  end.
(** the local Array or Object of DeclareArray, DeclareObject: elements are copied in; it is copied by the
    constructor of Value and then destroyed, also if that constructor throws.  (Simplified: the caller's
    own vector or map allocates nothing else that can fail.) *)
Definition via_local (h : heap) (fs : list bool) (vs : list val)
  (mk : heap -> list bool -> list val -> result val) : result unit :=
  let! (h, fs, r) := copy_vec (copy (depth h)) (destroy (depth h)) h fs [] vs in
  match r with
  | None => Ok (h, fs, None)
  | Some es =>
    let! (h, fs, r) := mk h fs es in
    match r with
    | None => let! h := destroy_all (destroy (depth h)) h es in Ok (h, fs, None)
    | Some v => let! h := push_var h v in
                let! h := destroy_all (destroy (depth h)) h es in Ok (h, fs, Some tt)
    end
  end.
Definition step (h : heap) (fs : list bool) (o : op) : result unit :=
  match o with
  | Declare l =>
    let! (h, fs, r) := make h fs l in
    match r with None => Ok (h, fs, None) | Some v => let! h := push_var h v in Ok (h, fs, Some tt) end
  | DeclareCopy src =>
    let! r := resolve h 0 src in
    let! v := read h r in
    let! (h, fs, r) := copy (depth h) h fs v in
    match r with None => Ok (h, fs, None) | Some v => let! h := push_var h v in Ok (h, fs, Some tt) end
  | DeclareArray srcs =>
    let! vs := reads h srcs in
    via_local h fs vs (fun h fs es => new_array (copy (depth h)) (destroy (depth h)) h fs es)
  | DeclareObject srcs =>
    let! vs := reads h (map snd srcs) in
    via_local h fs vs (fun h fs es => new_object (copy (depth h)) (destroy (depth h)) h fs (combine (map fst srcs) es))
  | Assign dst src =>
    let! d := resolve h 0 dst in
    let! r := resolve h 0 src in
    let! v := read h r in
    assign_ref h fs d v
  | AssignLit dst l =>
    let! d := resolve h 0 dst in
    let! (h, fs, r) := make h fs l in
    match r with
    | None => Ok (h, fs, None)
    | Some t =>
      let! (h, fs, r) := assign_ref h fs d t in
      let! h := destroy (depth h) h t in
      Ok (h, fs, r)
    end
  | Swap a b =>
    let! ra := resolve h 0 a in
    let! rb := resolve h 0 b in
    let! va := read h ra in
    let! vb := read h rb in
    let (va, vb) := swap_val va vb in
    let! h := write h ra va in
    let! h := write h rb vb in
    Ok (h, fs, Some tt)
  | Leave =>
    match cellat h 0 with
    | CArr vs =>
      match rev vs with
      | [] => UB
      | v :: _ => let! h := destroy (depth h) (upd h 0 (CArr (removelast vs))) v in Ok (h, fs, Some tt)
      end
    | _ => UB
    end
  end.
(** a program; exceptions are caught around each statement.  Each statement has its own failures *)
Fixpoint run (h : heap) (l : list (op * list bool)) : res heap :=
  match l with
  | [] => Ok h
  | (o, fs) :: l => let! (h, _, _) := step h fs o in run h l
  end.
Definition start : heap := [CArr []].
