(** Model of include/cybozu/nlp/tfidf.hpp: Df and TfIdf.  std::map is a sorted list of pairs, std::set the list of what was inserted.
    Doubles are abstract: the idf of a word and the product of a count and an idf are parameters, and so is the truncated product in Df::term.
    Output to stdout/stderr is left out. *)
Require Import Verif.Common Verif.SerializerModel Verif.StrOpModel Verif.ConfigModel Verif.SparseModel.

(** ++ on an int *)
Definition incr (x : Z) : res Z := if x <? 2 ^ 31 - 1 then Ok (x + 1) else UB.
Definition incr_at (l : list Z) (i : Z) : res (list Z) := let! x := rd l i in let! y := incr x in wr l i y.
(** std::vector<int>::resize *)
Definition vresize (n : nat) (l : list Z) : list Z := firstn n l ++ repeat 0 (n - length l).
(** std::set<std::string>::insert(..).second is false *)
Definition in_set (w : list Z) (s : list (list Z)) : bool := existsb (str_eq w) s.
(** std::map<int, int>: m[id]++ *)
Fixpoint imap_incr (id : Z) (m : list (Z * Z)) : res (list (Z * Z)) :=
  match m with
  | [] => Ok [(id, 1)]
  | (k, v) :: r => if id <? k then Ok ((id, 1) :: m) else if id =? k then let! v := incr v in Ok ((k, v) :: r) else let! r := imap_incr id r in Ok ((k, v) :: r)
  end.

(** tfidf.hpp:57-62 *)
Record dft := mk_df { docNum : Z; dw2i : list (list Z * Z); di2w : list (list Z); dfv : list Z; dset : list (list Z); dpv : list (Z * Z) }.
(** tfidf.hpp:63-66 *)
Definition df_new : dft := mk_df 0 [] [] [] [] [].
(** tfidf.hpp:67-80 Df::append *)
Definition df_append (d : dft) (word : list Z) : res dft :=
  let lower := ToLower2 [] word false in
  let next := to_s 32 (zlen (di2w d)) in
  let second := match mfind lower (dw2i d) with None => true | Some _ => false end in
  let id := match mfind lower (dw2i d) with None => next | Some i => i end in
  let w2i := minsert lower next (dw2i d) in
  let i2w := if second then di2w d ++ [lower] else di2w d in
  let v := if second then vresize (length i2w) (dfv d) else dfv d in
  if in_set word (dset d) then Ok (mk_df (docNum d) w2i i2w v (dset d) (dpv d))
  else let! v := incr_at v id in Ok (mk_df (docNum d) w2i i2w v (word :: dset d) (dpv d)).
(** tfidf.hpp:81-85 Df::endDoc *)
Definition df_endDoc (d : dft) : res dft := let! n := incr (docNum d) in Ok (mk_df n (dw2i d) (di2w d) (dfv d) [] (dpv d)).
(** tfidf.hpp:90-94 *)
Fixpoint df_select (lowerLimit : Z) (i : Z) (v : list Z) (pv : list (Z * Z)) : list (Z * Z) :=
  match v with
  | [] => pv
  | f :: r => df_select lowerLimit (i + 1) r (if f <=? lowerLimit then pv else pv ++ [(i, f)])
  end.
(** tfidf.hpp:87-99 Df::term; [trunc n] is (int)(n * upperRateLimit), [psort k l] what std::partial_sort makes of l.
    id2word_ and df_ have the same size. *)
Definition df_term (trunc : Z -> Z) (psort : nat -> list (Z * Z) -> list (Z * Z)) (lowerLimit : Z) (d : dft) : res dft :=
  let pv := df_select lowerLimit 0 (dfv d) (dpv d) in
  let pvNum := trunc (zlen pv) in
  if (pvNum <? 0) || (zlen pv <? pvNum) then UB else
  Ok (mk_df (docNum d) (dw2i d) (di2w d) (dfv d) (dset d) (firstn (Z.to_nat pvNum) (psort (Z.to_nat pvNum) pv))).
Fixpoint df_doc (d : dft) (ws : list (list Z)) : res dft := match ws with [] => Ok d | w :: r => let! d := df_append d w in df_doc d r end.
(** a corpus: append every word of a document, then endDoc *)
Fixpoint df_docs (d : dft) (docs : list (list (list Z))) : res dft :=
  match docs with [] => Ok d | ws :: r => let! d := df_doc d ws in let! d := df_endDoc d in df_docs d r end.

Section Real.
Context {R : Type}.
(** logN - log(df) for the two numbers, and int * double *)
Variable idf_of : Z -> Z -> R.
Variable times : Z -> R -> R.

(** tfidf.hpp:114-124; curTf_ is null or the index in tf_ *)
Record tfidf := mk_ti { w2i : list (list Z * Z); i2w : list (list Z); dfs : list Z; tfs : list (list (Z * Z)); idfs : list R; svs : list (sv R);
  curTf : option Z; tset : list (list Z) }.
Definition ti_new : tfidf := mk_ti [] [] [] [] [] [] None [].
(** word.find(TAB) and resize: None if there is no tab *)
Fixpoint before_tab (l : list Z) : option (list Z) :=
  match l with [] => None | c :: r => if c =? 9 then Some [] else option_map (cons c) (before_tab r) end.
(** tfidf.hpp:135-145 *)
Fixpoint key_loop (fuel : nat) (data : list Z) (w : list (list Z * Z)) (iw : list (list Z)) : res (list (list Z * Z) * list (list Z)) :=
  match fuel with
  | O => Fuel
  | S f =>
    match getline data with
    | None => Ok (w, iw)
    | Some (line, rest) =>
      match before_tab line with
      | None => Ok (w, iw)
      | Some word =>
        let next := to_s 32 (zlen iw) in
        let second := match mfind word w with None => true | Some _ => false end in
        key_loop f rest (minsert word next w) (if second then iw ++ [word] else iw)
      end
    end
  end.
(** tfidf.hpp:130-149 loadKeywordFile of a file with this content; opening it succeeds *)
Definition loadKeywordFile (t : tfidf) (data : list Z) : res tfidf :=
  let! (w, iw) := key_loop (S (length data)) data (w2i t) (i2w t) in
  Ok (mk_ti w iw (vresize (length iw) (dfs t)) (tfs t) (idfs t) (svs t) (curTf t) (tset t)).
(** tfidf.hpp:151-166 append *)
Definition ti_append (t : tfidf) (word : list Z) : res tfidf :=
  let lower := ToLower2 [] word false in
  match mfind lower (w2i t) with
  | None => Ok t
  | Some id =>
    let tf := match curTf t with None => tfs t ++ [[]] | Some _ => tfs t end in
    let cur := match curTf t with None => zlen (tfs t) | Some c => c end in
    let! m := rd tf cur in
    let! m := imap_incr id m in
    let! tf := wr tf cur m in
    if in_set lower (tset t) then Ok (mk_ti (w2i t) (i2w t) (dfs t) tf (idfs t) (svs t) (Some cur) (tset t))
    else let! v := incr_at (dfs t) id in Ok (mk_ti (w2i t) (i2w t) v tf (idfs t) (svs t) (Some cur) (lower :: tset t))
  end.
(** tfidf.hpp:167-171 endDoc *)
Definition ti_endDoc (t : tfidf) : tfidf := mk_ti (w2i t) (i2w t) (dfs t) (tfs t) (idfs t) (svs t) None [].
(** tfidf.hpp:193-195; an exception of push_back leaves term() *)
Fixpoint ti_vec (idf : list R) (v : sv R) (m : list (Z * Z)) : res (sv R) :=
  match m with
  | [] => Ok v
  | (id, n) :: r => let! x := rd idf id in
    let (v, thrown) := push_back v (if id <? 0 then id + 2 ^ 64 else id) (times n x) in if thrown then Exn else ti_vec idf v r
  end.
(** tfidf.hpp:190-197 *)
Fixpoint ti_vecs (n : nat) (i : Z) (tf : list (list (Z * Z))) (idf : list R) (acc : list (sv R)) : res (list (sv R)) :=
  match n with
  | O => Ok acc
  | S n' => let! iv := rd tf i in let! v := ti_vec idf (sv_new false) iv in ti_vecs n' (i + 1) tf idf (acc ++ [v])
  end.
(** tfidf.hpp:183-198 term; the resized idf_ is overwritten completely *)
Definition ti_term (t : tfidf) : res tfidf :=
  let idf := map (idf_of (zlen (tfs t))) (dfs t) in
  let! s := ti_vecs (length (dfs t)) 0 (tfs t) idf (svs t) in
  Ok (mk_ti (w2i t) (i2w t) (dfs t) (tfs t) idf s (curTf t) (tset t)).
Fixpoint ti_doc (t : tfidf) (ws : list (list Z)) : res tfidf := match ws with [] => Ok t | w :: r => let! t := ti_append t w in ti_doc t r end.
Fixpoint ti_docs (t : tfidf) (docs : list (list (list Z))) : res tfidf :=
  match docs with [] => Ok t | ws :: r => let! t := ti_doc t ws in ti_docs (ti_endDoc t) r end.
End Real.
Arguments tfidf : clear implicits.
