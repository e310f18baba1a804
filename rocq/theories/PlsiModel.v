(** Model of include/cybozu/nlp/plsi.hpp (class Plsi) and of the loading loop of sample/plsi_smpl.cpp.
    double is a type F with its operations as parameters (nothing is assumed about them), so the model covers the rounding
    arithmetic of the code as well as exact numbers.  std::vector accesses are checked (UB outside), int has 32 bits,
    size_t 64.  std::map is an association list; allocation never fails. *)
Require Import Verif.Common.
Require Verif.SparseModel Verif.TopScoreModel.

(** for (int k = 0; k < n; k++) as a fold over 0 .. n-1 *)
Definition upto (n : Z) : list Z := map Z.of_nat (seq 0 (Z.to_nat n)).
Fixpoint foldM {S X} (f : S -> X -> res S) (l : list X) (s : S) : res S :=
  match l with [] => Ok s | x :: r => let! s := f s x in foldM f r s end.
(** v[i][j] and v[i][j] = x *)
Definition rd2 {A} (v : list (list A)) (i j : Z) : res A := let! r := rd v i in rd r j.
Definition wr2 {A} (v : list (list A)) (i j : Z) (x : A) : res (list (list A)) :=
  let! r := rd v i in let! r := wr r j x in wr v i r.

(** std::map<int, size_t>::find *)
Fixpoint lookup (m : list (Z * Z)) (k : Z) : option Z :=
  match m with [] => None | (a, b) :: m => if a =? k then Some b else lookup m k end.
(** (int)v.size() *)
Definition int_of (x : Z) : Z := (x + 2 ^ 31) mod 2 ^ 32 - 2 ^ 31.

(** plsi.hpp:49-53 *)
Inductive search_type := JOINT | CONDITIONAL | POSTERIOR.

Section Plsi.
Context {F : Type}.
Variables (fadd fmul fdiv fpow : F -> F -> F) (fopp flog fexp : F -> F) (fz : Z -> F).   (* fz: the double of an integer *)
Variables (gtb leb : F -> F -> bool).
Variable (rnd : nat -> F).    (* the values getDouble() of a fresh UniformRandomGenerator(0.25, 0.75) returns, one after the other *)

(** plsi.hpp:57-67 *)
Record plsi := mk_plsi {
  users : list (Z * Z); userlist : list Z;
  items : list (Z * Z); itemlist : list Z;
  matrix : list (SparseModel.sv bool);
  zv : list F; user_z : list (list F); item_z : list (list F) }.
Definition plsi_new : plsi := mk_plsi [] [] [] [] [] [] [] [].

(** plsi.hpp:77-84 get_item_id *)
Definition get_item_id (p : plsi) (item : Z) : Z * plsi :=
  match lookup (items p) item with
  | Some id => (id, p)
  | None =>
      let id := zlen (itemlist p) in
      (id, mk_plsi (users p) (userlist p) (items p ++ [(item, id)]) (itemlist p ++ [item]) (matrix p ++ [SparseModel.sv_new false]) (zv p) (user_z p) (item_z p))
  end.
(** plsi.hpp:90-96 get_user_id *)
Definition get_user_id (p : plsi) (user : Z) : Z * plsi :=
  match lookup (users p) user with
  | Some id => (id, p)
  | None =>
      let id := zlen (userlist p) in
      (id, mk_plsi (users p ++ [(user, id)]) (userlist p ++ [user]) (items p) (itemlist p) (matrix p) (zv p) (user_z p) (item_z p))
  end.
(** plsi.hpp:98-100 get_item_key *)
Definition get_item_key (p : plsi) (id : Z) : res Z := rd (itemlist p) id.

Definition set_matrix (p : plsi) (m : list (SparseModel.sv bool)) : plsi :=
  mk_plsi (users p) (userlist p) (items p) (itemlist p) m (zv p) (user_z p) (item_z p).
Definition set_params (p : plsi) (z : list F) (u v : list (list F)) : plsi :=
  mk_plsi (users p) (userlist p) (items p) (itemlist p) (matrix p) z u v.

(** std::map<size_t, bool>: insertion of a key into the sorted keys *)
Fixpoint insert_key (k : Z) (m : list Z) : list Z :=
  match m with [] => [k] | a :: r => if k =? a then m else if k <? a then k :: m else a :: insert_key k r end.
(** sample/plsi_smpl.cpp:23-27: map[plsi.get_user_id(user_key)] = true for each user of the line *)
Fixpoint user_ids (p : plsi) (us : list Z) (m : list Z) : list Z * plsi :=
  match us with
  | [] => (m, p)
  | u :: us => let (id, p) := get_user_id p u in user_ids p us (insert_key id m)
  end.
(** sample/plsi_smpl.cpp:21-28, one line of the data: plsi.getItem(item).set(map) with plsi.hpp:86-88 getItem;
    a line without users is skipped; set throws when the item already has a user that is not smaller *)
Definition observe (p : plsi) (line : Z * list Z) : res plsi :=
  let (item, us) := line in
  match us with
  | [] => Ok p
  | _ =>
      let (m, p) := user_ids p us [] in
      let (id, p) := get_item_id p item in
      let! row := rd (matrix p) id in
      let (row, thrown) := SparseModel.sv_set row (map (fun k => (k, true)) m) in
      if thrown then Exn else
      let! mt := wr (matrix p) id row in
      Ok (set_matrix p mt)
  end.

(** TopScore: the constructor (size_t from int, a negative number makes resize throw), add for each id, getTable *)
Definition top_start (top : Z) : res (@TopScoreModel.top F Z) :=
  if top <? 0 then Exn else Ok (TopScoreModel.top_new (fz 0, 0) top).
Definition top_finish (t : @TopScoreModel.top F Z) : list (F * Z) := fst (TopScoreModel.getTable (fz 0, 0) t).
Definition rank (t : @TopScoreModel.top F Z) (s : F) (id : Z) := TopScoreModel.add gtb leb t s id.

(** plsi.hpp:105-126 search_items *)
Definition search_items (p : plsi) (user top : Z) : res (list (F * Z) * plsi) :=
  let K := int_of (zlen (zv p)) in
  let (uid, p) := get_user_id p user in
  let! (p_x, p_z_x) := foldM (fun '(s, l) k =>
      let! a := rd (zv p) k in let! b := rd2 (user_z p) k uid in
      let q := fmul a b in Ok (fadd s q, l ++ [q])) (upto K) (fz 0, []) in
  let! t := top_start top in
  let! t := foldM (fun t id =>
      let! score := foldM (fun s k => let! a := rd2 (item_z p) k id in let! b := rd p_z_x k in Ok (fadd s (fmul a b))) (upto K) (fz 0) in
      rank t (fdiv score p_x) id) (upto (zlen (items p))) t in
  Ok (top_finish t, p).

(** plsi.hpp:131-178 similar_items *)
Definition similar_items (p : plsi) (item : Z) (ty : search_type) (top : Z) : res (list (F * Z) * plsi) :=
  let K := int_of (zlen (zv p)) in
  let (tid, p) := get_item_id p item in
  let! t := top_start top in
  let! t :=
    match ty with
    | POSTERIOR =>
        foldM (fun t id =>
          let! (score, p_y) := foldM (fun '(score, p_y) k =>
              let! a := rd2 (item_z p) k id in let! z := rd (zv p) k in
              let q := fmul a z in
              let p_y := fadd p_y q in
              let! b := rd2 (item_z p) k tid in
              Ok (fadd score (fmul b q), p_y)) (upto K) (fz 0, fz 0) in
          rank t (fdiv score p_y) id) (upto (zlen (items p))) t
    | CONDITIONAL =>
        let! (p_y, p_z_y) := foldM (fun '(s, l) k =>
            let! a := rd (zv p) k in let! b := rd2 (item_z p) k tid in
            let q := fmul a b in Ok (fadd s q, l ++ [q])) (upto K) (fz 0, []) in
        foldM (fun t id =>
          let! score := foldM (fun s k => let! a := rd2 (item_z p) k id in let! b := rd p_z_y k in Ok (fadd s (fmul a b))) (upto K) (fz 0) in
          rank t (fdiv score p_y) id) (upto (zlen (items p))) t
    | JOINT =>
        foldM (fun t id =>
          let! score := foldM (fun s k =>
              let! a := rd2 (item_z p) k id in let! b := rd2 (item_z p) k tid in let! z := rd (zv p) k in
              Ok (fadd s (fmul (fmul a b) z))) (upto K) (fz 0) in
          rank t score id) (upto (zlen (items p))) t
    end in
  Ok (top_finish t, p).

(** the iteration over the users of each item in turn, plsi.hpp:199-212, 270-296; [body] sees the item id and the user id;
    begin() of a SparseVector may change its mutable part, so the rows are returned *)
Fixpoint each_row {S} (body : S -> Z -> Z -> res S) (id : Z) (m : list (SparseModel.sv bool)) (s : S) : res (S * list (SparseModel.sv bool)) :=
  match m with
  | [] => Ok (s, [])
  | row :: m =>
      let! (l, row) := SparseModel.iterate row in
      let! s := foldM (fun s e => body s id (fst e)) l s in
      let! (s, m) := each_row body (id + 1) m s in
      Ok (s, row :: m)
  end.
(** ++denom on an int *)
Definition inc_int (n : Z) : res Z := if n <? 2 ^ 31 - 1 then Ok (n + 1) else UB.

(** plsi.hpp:183-214 perplexity *)
Definition perplexity (p : plsi) : res (F * plsi) :=
  let K := int_of (zlen (zv p)) in
  let! p_x := foldM (fun l uid =>
      let! q := foldM (fun s k => let! a := rd (zv p) k in let! b := rd2 (user_z p) k uid in Ok (fadd s (fmul a b))) (upto K) (fz 0) in
      Ok (l ++ [q])) (upto (zlen (users p))) [] in
  let! (s, m) := each_row (fun '(denom, sum) id uid =>
      let! denom := inc_int denom in
      let! q := foldM (fun s k =>
          let! a := rd (zv p) k in let! b := rd2 (user_z p) k uid in let! c := rd2 (item_z p) k id in
          Ok (fadd s (fmul (fmul a b) c))) (upto K) (fz 0) in
      let! d := rd p_x uid in
      Ok (denom, fadd sum (flog (fdiv q d)))) 0 (matrix p) (0, fz 0) in
  let '(denom, sum) := s in
  Ok (fexp (fdiv (fopp sum) (fz denom)), set_matrix p m).

(** std::vector<double>::resize(n): value-initialised; std::vector<DoubleVec>::resize(n) of a smaller or larger vector *)
Definition zeros (n : Z) : list F := repeat (fz 0) (Z.to_nat n).
Definition resize_rows (v : list (list F)) (n : Z) : list (list F) := firstn (Z.to_nat n) v ++ repeat [] (Z.to_nat n - length v).

(** plsi.hpp:219-245 startLearning; a negative K makes resize throw *)
Definition startLearning (p : plsi) (K : Z) : res plsi :=
  if K <? 0 then Exn else
  let M := zlen (users p) in
  let N := zlen (items p) in
  let uz := resize_rows (user_z p) K in
  let iz := resize_rows (item_z p) K in
  let! (z, uz, iz, _) := foldM (fun '(z, uz, iz, g) k =>
      let z := z ++ [fdiv (fz 1) (fz K)] in
      let! uvec := rd uz k in
      let uvec := fold_left (fun l _ => l ++ [fdiv (fz 1) (fz M)]) (upto M) uvec in
      let! uz := wr uz k uvec in
      let! ivec := rd iz k in
      let '(ivec, s, g) := fold_left (fun '(l, s, g) _ => let r := rnd g in (l ++ [r], fadd s r, Datatypes.S g)) (upto N) (ivec, fz 0, g) in
      let! ivec := foldM (fun l j => let! x := rd l j in wr l j (fdiv x s)) (upto N) ivec in
      let! iz := wr iz k ivec in
      Ok (z, uz, iz, g)) (upto K) (zv p, uz, iz, 0%nat) in
  Ok (set_params p z uz iz).

(** the accumulators of step: z_numer, user_numer, item_numer, denom, likelihood, p_z_xy *)
Record acc := mk_acc { a_z : list F; a_u : list (list F); a_i : list (list F); a_n : Z; a_l : F; a_p : list F }.

(** plsi.hpp:273-294 one observation *)
Definition step_obs (p : plsi) (K : Z) (beta : F) (a : acc) (item_id user_id : Z) : res acc :=
  let! n := inc_int (a_n a) in
  let! (sum, pz) := foldM (fun '(sum, pz) k =>
      let! z := rd (zv p) k in let! u := rd2 (user_z p) k user_id in let! i := rd2 (item_z p) k item_id in
      let q := fpow (fmul (fmul z u) i) beta in
      let! pz := wr pz k q in
      Ok (fadd sum q, pz)) (upto K) (fz 0, a_p a) in
  let! (un, inn, zn) := foldM (fun '(un, inn, zn) k =>
      let! q := rd pz k in
      let q := fdiv q sum in
      let! x := rd2 un k user_id in let! un := wr2 un k user_id (fadd x q) in
      let! x := rd2 inn k item_id in let! inn := wr2 inn k item_id (fadd x q) in
      let! x := rd zn k in let! zn := wr zn k (fadd x q) in
      Ok (un, inn, zn)) (upto K) (a_u a, a_i a, a_z a) in
  Ok (mk_acc zn un inn n (fadd (a_l a) (flog sum)) pz).

(** plsi.hpp:299-308 the update of the parameters *)
Definition step_update (p : plsi) (K : Z) (a : acc) : res plsi :=
  let! (z, uz, iz) := foldM (fun '(z, uz, iz) k =>
      let! z_num := rd (a_z a) k in
      let! z := wr z k (fdiv z_num (fz (a_n a))) in
      let! iz := foldM (fun iz id => let! x := rd2 (a_i a) k id in wr2 iz k id (fdiv x z_num)) (upto (zlen (items p))) iz in
      let! uz := foldM (fun uz id => let! x := rd2 (a_u a) k id in wr2 uz k id (fdiv x z_num)) (upto (zlen (users p))) uz in
      Ok (z, uz, iz)) (upto K) (zv p, user_z p, item_z p) in
  Ok (set_params p z uz iz).

(** plsi.hpp:252-312 step *)
Definition step (p : plsi) (beta : F) : res (F * plsi) :=
  let K := int_of (zlen (zv p)) in
  let a0 := mk_acc (zeros K) (repeat (zeros (zlen (users p))) (Z.to_nat K)) (repeat (zeros (zlen (items p))) (Z.to_nat K)) 0 (fz 0) (zeros K) in
  let! (a, m) := each_row (step_obs p K beta) 0 (matrix p) a0 in
  let! p := step_update (set_matrix p m) K a in
  Ok (a_l a, p).
End Plsi.
Arguments mk_plsi {F}. Arguments plsi_new {F}. Arguments users {F}. Arguments userlist {F}. Arguments items {F}. Arguments itemlist {F}. Arguments matrix {F}. Arguments zv {F}. Arguments user_z {F}. Arguments item_z {F}.
Arguments mk_acc {F}. Arguments a_z {F}. Arguments a_u {F}. Arguments a_i {F}. Arguments a_n {F}. Arguments a_l {F}. Arguments a_p {F}.
