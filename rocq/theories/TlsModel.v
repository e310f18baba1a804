(** Model of include/cybozu/tls.hpp (POSIX branch): thread local storage.  The pthread calls are atomic, so that a history of calls by
    any threads is a sequence.  Which key pthread_key_create returns, and whether it and pthread_setspecific succeed, are inputs.
    Using a key that does not exist is UB (POSIX). *)
Require Import Verif.Common.

(** the keys that exist and the value of each key in each thread *)
Record keys := mk_keys { k_live : list Z; k_val : Z -> Z -> Z }.
Definition live (s : keys) (k : Z) : bool := existsb (Z.eqb k) (k_live s).
(** pthread_key_create: the value is null in all threads *)
Definition key_create (s : keys) (k : Z) : keys := mk_keys (k :: k_live s) (fun k' t => if k' =? k then 0 else k_val s k' t).
Definition setspecific (s : keys) (k t p : Z) (ok : bool) : res (bool * keys) :=
  if negb (live s k) then UB else
  if ok then Ok (true, mk_keys (k_live s) (fun k' t' => if (k' =? k) && (t' =? t) then p else k_val s k' t')) else Ok (false, s).
Definition getspecific (s : keys) (k t : Z) : res Z := if negb (live s k) then UB else Ok (k_val s k t).
Definition key_delete (s : keys) (k : Z) : res keys :=
  if negb (live s k) then UB else Ok (mk_keys (filter (fun x => negb (x =? k)) (k_live s)) (k_val s)).

(** tls.hpp:50-51 *)
Definition KEYS_MAX := 1024.
Definition invalidTlsIndex := KEYS_MAX + 1.
(** tls.hpp:53-60 Init; k: the key, or None if pthread_key_create fails *)
Definition Init (s : keys) (k : option Z) : Z * keys :=
  match k with Some k => (k, key_create s k) | None => (invalidTlsIndex, s) end.
(** tls.hpp:86-89 *)
Definition isValid (idx : Z) : bool := negb (idx =? invalidTlsIndex).
(** tls.hpp:95-98 set *)
Definition set (s : keys) (idx t p : Z) (ok : bool) : res (bool * keys) := if isValid idx then setspecific s idx t p ok else Ok (false, s).
(** tls.hpp:99-102 get *)
Definition get (s : keys) (idx t : Z) : res Z := if isValid idx then getspecific s idx t else Ok 0.
(** tls.hpp:103-109 ~Tls *)
Definition destroy (s : keys) (idx t : Z) (ok : bool) : res keys :=
  if isValid idx then let! (_, s) := set s idx t 0 ok in key_delete s idx else Ok s.

(** calls by thread t on object o *)
Inductive top :=
| TMake (o : Z) (k : option Z)
| TSet (t o p : Z) (ok : bool)
| TGet (t o : Z)
| TDestroy (t o : Z) (ok : bool)
| TCopy (o o' : Z)               (* the implicit copy constructor: o' is made from o *).
(** what a call returns *)
Inductive tans := ASet (b : bool) | AGet (p : Z).
(** the objects that exist, with idx_ *)
Record tsys := mk_tsys { t_keys : keys; t_obj : Z -> option Z }.
Definition tsys0 : tsys := mk_tsys (mk_keys [] (fun _ _ => 0)) (fun _ => None).
Definition put (f : Z -> option Z) (o : Z) (v : option Z) : Z -> option Z := fun o' => if o' =? o then v else f o'.
(** one call; using an object that does not exist is UB *)
Definition tstep (s : tsys) (c : top) : res (tsys * list tans) :=
  match c with
  | TMake o k => let (idx, ks) := Init (t_keys s) k in Ok (mk_tsys ks (put (t_obj s) o (Some idx)), [])
  | TSet t o p ok =>
    match t_obj s o with
    | Some idx => let! (b, ks) := set (t_keys s) idx t p ok in Ok (mk_tsys ks (t_obj s), [ASet b])
    | None => UB
    end
  | TGet t o =>
    match t_obj s o with
    | Some idx => let! p := get (t_keys s) idx t in Ok (s, [AGet p])
    | None => UB
    end
  | TDestroy t o ok =>
    match t_obj s o with
    | Some idx => let! ks := destroy (t_keys s) idx t ok in Ok (mk_tsys ks (put (t_obj s) o None), [])
    | None => UB
    end
  | TCopy o o' =>
    match t_obj s o with
    | Some idx => Ok (mk_tsys (t_keys s) (put (t_obj s) o' (Some idx)), [])
    | None => UB
    end
  end.
Fixpoint tsteps (s : tsys) (l : list top) : res (tsys * list tans) :=
  match l with
  | [] => Ok (s, [])
  | c :: r => let! (s, a) := tstep s c in let! (s, a') := tsteps s r in Ok (s, a ++ a')
  end.
