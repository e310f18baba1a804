(** Model of the file name functions of include/cybozu/file.hpp and of SocketAddr::hasSameAddr, getPort, verify of
    include/cybozu/socket.hpp. *)
Require Import Verif.Common.

(** memcmp(a + i, b + j, n) == 0: UB if it reads outside; memcmp may read all n bytes *)
Fixpoint memeq (a b : list Z) (i j : Z) (n : nat) : res bool :=
  match n with
  | O => Ok true
  | S n' => let! x := rd a i in let! y := rd b j in let! r := memeq a b (i + 1) (j + 1) n' in Ok ((x =? y) && r)
  end.

(** file.hpp:358-366 HasExtension; sizes are size_t, nameSize - extensionSize - 1 does not wrap after the test *)
Definition HasExtension (name ext : list Z) : res bool :=
  let extensionSize := zlen ext in
  if extensionSize =? 0 then Ok true else
  let nameSize := zlen name in
  if nameSize <? extensionSize + 1 then Ok false else
  let p := nameSize - extensionSize - 1 in
  let! c := rd name p in
  if c =? 46 then memeq name ext (p + 1) 0 (length ext) else Ok false.

(** std::string::find_last_of(c): position of the last c *)
Fixpoint find_last (c : Z) (l : list Z) (i : nat) : option nat :=
  match l with
  | [] => None
  | x :: r => match find_last c r (S i) with Some p => Some p | None => if x =? c then Some i else None end
  end.
(** file.hpp:370-381 GetBaseName(name, &suffix): base and suffix *)
Definition GetBaseName (name : list Z) : list Z * list Z :=
  match find_last 46 name 0 with
  | None => (name, [])
  | Some pos => (firstn pos name, skipn (S pos) name)
  end.
(** file.hpp:386-391 ReplaceBackSlash *)
Definition ReplaceBackSlash (s : list Z) : list Z := map (fun c => if c =? 92 then 47 else c) s.
(** file.hpp:423-442 GetExePath on Linux, given the target of /proc/self/exe: path and base name (left as it was without a '/') *)
Definition exeName : list Z := [101; 120; 101].
Fixpoint listZ_eqb (a b : list Z) : bool :=
  match a, b with [], [] => true | x :: a', y :: b' => (x =? y) && listZ_eqb a' b' | _, _ => false end.
Definition GetExePath (target baseName0 : list Z) : list Z * list Z :=
  match find_last 47 target 0 with
  | None => (target, baseName0)
  | Some pos =>
    let name := skipn (S pos) target in
    let '(base, suffix) := GetBaseName name in
    (firstn (S pos) target, if listZ_eqb suffix exeName then base else name)
  end.
(** file.hpp:541-549 filterAndPush with the default condition, on the names of a directory (file.hpp:608-615 GetFileList) *)
Fixpoint GetFileList (entries : list (list Z)) (ext : list Z) : res (list (list Z)) :=
  match entries with
  | [] => Ok []
  | e :: r =>
    if listZ_eqb e [46] || listZ_eqb e [46; 46] then GetFileList r ext else
    let! b := HasExtension e ext in
    let! l := GetFileList r ext in
    Ok (if b then e :: l else l)
  end.

(** socket.hpp:208-216 SocketAddr: family_ and the bytes of the union addr_ (28 bytes on Linux: sizeof(sockaddr_in6)).
    sin_port and sin6_port are at offset 2, sin_addr at 4 (4 bytes), sin6_addr at 8 (16 bytes). *)
Record sockaddr := mk_sa { sa_family : Z; sa_bytes : list Z; sa_len : Z }.
Definition AF_INET : Z := 2.
Definition AF_INET6 : Z := 10.
Definition header : list Z := [0; 0; 0; 0; 0; 0; 0; 0; 0; 0; 255; 255].
(** socket.hpp:297-317 hasSameAddr *)
Definition hasSameAddr (a b : sockaddr) : res bool :=
  let mapped v4 v6 :=
    let! h := memeq v6 header 8 0 12 in
    if h then memeq v6 v4 20 4 4 else Ok false in
  if sa_family a =? AF_INET then
    if sa_family b =? AF_INET then memeq (sa_bytes a) (sa_bytes b) 4 4 4 else
    if negb (sa_family b =? AF_INET6) then Ok false else mapped (sa_bytes a) (sa_bytes b)
  else if negb (sa_family a =? AF_INET6) then Ok false else
    if sa_family b =? AF_INET6 then memeq (sa_bytes a) (sa_bytes b) 8 8 16 else
    if negb (sa_family b =? AF_INET) then Ok false else mapped (sa_bytes b) (sa_bytes a).
(** socket.hpp:288-295 getPort: network byte order *)
Definition getPort (a : sockaddr) : res Z :=
  if (sa_family a =? AF_INET) || (sa_family a =? AF_INET6) then
    let! h := rd (sa_bytes a) 2 in let! l := rd (sa_bytes a) 3 in Ok (h * 256 + l)
  else Exn.
(** socket.hpp:218-229 verify, after accept stored sa_len bytes; the first two bytes are sa_family (host order, little endian) *)
Definition verify (a : sockaddr) : res sockaddr :=
  let! f0 := rd (sa_bytes a) 0 in let! f1 := rd (sa_bytes a) 1 in
  let f := f0 + 256 * f1 in
  if (sa_len a =? 16) && (f =? AF_INET) then Ok (mk_sa AF_INET (sa_bytes a) (sa_len a)) else
  if (sa_len a =? 28) && (f =? AF_INET6) then Ok (mk_sa AF_INET6 (sa_bytes a) (sa_len a)) else Exn.
