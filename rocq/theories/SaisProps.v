(** C64: saisxx (include/sais.hxx) computes the suffix array.
    The specification [is_suffix_array] (FmCore.v) says: the array is a permutation of the positions 0 .. n-1, and the suffixes
    at consecutive entries are strictly increasing in lexicographic order (a proper prefix is smaller). *)
Require Import Verif.Common Verif.Cnt Verif.FmCore Verif.FmModel Verif.FmInit Verif.FmProps Verif.FrequencyModel Verif.FrequencyProps Verif.SaisModel Verif.SaisType Verif.SaisInduce Verif.SaisRefine Verif.SaisKeys Verif.SaisStage Verif.SaisLms Verif.SaisSort.
From Coq Require Import Permutation.
Ltac Zify.zify_post_hook ::= idtac.

(** an alphabet of k symbols *)
Definition over (k : Z) (T : list Z) : Prop := Forall (fun c => 0 <= c < k) T.
Lemma over_at k T : over k T -> forall p, 0 <= p < zlen T -> 0 <= at_ T p < k.
Proof. intros F p Hp. unfold over in F. rewrite Forall_forall in F. apply F. apply at_In. auto. Qed.

(** saisxx either returns 0 with the suffix array in SA, or -2, and that only if an allocation failed.
    It never reads or writes outside T, SA and its bucket arrays, and terminates. *)
Theorem C64_suffix_array : forall alloc T SA k, 0 < k < 2 ^ 31 -> zlen T < 2 ^ 31 -> over k T -> zlen SA = zlen T ->
  (exists sa, saisxx alloc T SA (zlen T) k = Ok (0, Some sa) /\ is_suffix_array T sa) \/
  (saisxx alloc T SA (zlen T) k = Ok (-2, None) /\ exists d s, alloc d s = false).
Proof.
  intros alloc T SA k Hk _ F L. pose proof (zlen_nonneg T) as N0. unfold saisxx. destruct (Z.ltb_spec (zlen T) 0); [lia|]. destruct (Z.leb_spec k 0); [lia|]. cbn [orb].
  destruct (Z.leb_spec (zlen T) 1) as [L1|L1].
  - left. destruct (Z.eqb_spec (zlen T) 1) as [E|E].
    + destruct (wr_at SA 0 0) as (SA' & -> & L' & A); [lia|]. cbn [bind]. exists SA'. split; auto. apply listed_sa; [lia|]. split; [|split].
      * intros t Ht. rewrite A by lia. destruct (Z.eqb_spec t 0); lia.
      * intros p Hp. exists 0. split; [lia|]. rewrite A by lia. cbn. lia.
      * intros t u Ht Hu. lia.
    + exists SA. split; auto. apply listed_sa; auto. split; [|split]; intros; lia.
  - destruct (suffixsort_ok (length T) alloc 0 T SA 0 k) as [(sa & -> & Ls & Li)|[-> (d & s & E)]]; try (unfold zlen in *; lia); [apply over_at; auto| |].
    + left. exists sa. split; auto. apply listed_sa; [lia|]. rewrite firstn_all2 in Li by (unfold zlen in *; lia). auto.
    + right. split; auto. eauto.
Qed.
(** with enough memory the result is always 0 *)
Theorem C64_success : forall T SA k, 0 < k < 2 ^ 31 -> zlen T < 2 ^ 31 -> over k T -> zlen SA = zlen T ->
  exists sa, saisxx (fun _ _ => true) T SA (zlen T) k = Ok (0, Some sa) /\ is_suffix_array T sa.
Proof. intros T SA k Hk HT F L. destruct (C64_suffix_array (fun _ _ => true) T SA k Hk HT F L) as [H|[_ (d & s & E)]]; auto. discriminate. Qed.
(** the suffix array is unique, so the old contents of SA do not show in the result *)
Theorem C64_unique : forall T sa sa', is_suffix_array T sa -> is_suffix_array T sa' -> sa = sa'.
Proof.
  intros T. assert (forall sa, is_suffix_array T sa -> zlen sa = zlen T) as Ln. { intros sa [Pm _]. apply Permutation_length in Pm. rewrite map_length, seq_length in Pm. unfold zlen. lia. }
  assert (forall sa, is_suffix_array T sa -> (forall t, 0 <= t < zlen T -> 0 <= at_ sa t < zlen T) /\ forall p, 0 <= p < zlen T -> exists t, 0 <= t < zlen T /\ at_ sa t = p) as Rg.
  { intros sa H. pose proof (Ln sa H) as L. destruct H as [Pm _]. split.
    - intros t Ht. assert (In (at_ sa t) sa) as I1 by (apply at_In; lia). apply (Permutation_in _ Pm) in I1. apply in_map_iff in I1. destruct I1 as (i & <- & Hi). apply in_seq in Hi. unfold zlen. lia.
    - intros p Hp. assert (In p sa) as I1. { apply (Permutation_in _ (Permutation_sym Pm)). apply in_map_iff. exists (Z.to_nat p). split; [lia|]. apply in_seq. unfold zlen in Hp. lia. } apply (In_nth _ _ 0) in I1. destruct I1 as (i & Hi & <-). exists (Z.of_nat i). unfold at_. rewrite Nat2Z.id. split; auto. unfold zlen in *. lia. }
  assert (forall sa sa', is_suffix_array T sa -> is_suffix_array T sa' -> forall m t, t < Z.of_nat m -> 0 <= t < zlen T -> (forall u, 0 <= u < t -> at_ sa u = at_ sa' u) -> ~ lex_lt (suffix T (at_ sa t)) (suffix T (at_ sa' t))) as Key.
  { intros sa sa' H H' m t Hm Ht E G. destruct (proj2 (Rg sa' H') (at_ sa t) (proj1 (Rg sa H) t Ht)) as (u & Hu & Eu). destruct (Z.lt_trichotomy u t) as [A|[-> |A]].
    - assert (at_ sa u = at_ sa t) as F by (rewrite E by lia; auto). pose proof (proj2 H u t ltac:(lia) ltac:(lia)) as X. rewrite F in X. apply lex_irrefl in X. auto.
    - rewrite Eu in G. apply lex_irrefl in G. auto.
    - pose proof (proj2 H' t u ltac:(lia) ltac:(lia)) as X. rewrite Eu in X. apply (lex_asym _ _ X G). }
  intros sa sa' H H'. apply at_ext; [rewrite (Ln sa H), (Ln sa' H'); auto|]. intros i0 Hi0. rewrite (Ln sa H) in Hi0. revert i0 Hi0. assert (forall m t, t < Z.of_nat m -> 0 <= t < zlen T -> at_ sa t = at_ sa' t) as X; [|intros i Hi; apply (X (S (Z.to_nat i))); auto; lia].
  induction m as [|m IH]; intros t Hm Ht; [lia|]. assert (forall u, 0 <= u < t -> at_ sa u = at_ sa' u) as E by (intros u Hu; apply IH; lia).
  pose proof (Key sa sa' H H' (S m) t Hm Ht E) as K1. pose proof (Key sa' sa H' H (S m) t Hm Ht (fun u Hu => eq_sym (E u Hu))) as K2.
  destruct (lex_trich (suffix T (at_ sa t)) (suffix T (at_ sa' t))) as [F|[F|F]]; [|contradiction|contradiction]. apply suffix_inj' in F; auto; [pose proof (proj1 (Rg sa H) t Ht)|pose proof (proj1 (Rg sa' H') t Ht)]; lia.
Qed.
(** wrong arguments are refused, and SA is left alone *)
Theorem C64_refused : forall alloc T SA n k, n < 0 \/ k <= 0 -> saisxx alloc T SA n k = Ok (-1, Some SA).
Proof. intros alloc T SA n k H. unfold saisxx. destruct (Z.ltb_spec n 0), (Z.leb_spec k 0); auto; lia. Qed.

(** ** the FM-index with the repository's own suffix sorter *)
(** fmindex.hpp:152-153: saisxx(&v[0], &sa[0], dataSize, charNum_), the vector sa created with n zeros; memory does not run out *)
Definition repo_sais (v : list Z) (k : Z) : Z * list Z :=
  match saisxx (fun _ _ => true) v (repeat 0 (length v)) (zlen v) k with
  | Ok (e, Some sa) => (e, sa)
  | Ok (e, None) => (e, [])
  | _ => (0, [])
  end.
Theorem C64_meets_C31 : sais_ok repo_sais.
Proof.
  intros v k Hv Hk F. unfold repo_sais. destruct (C64_success v (repeat 0 (length v)) k) as (sa & -> & H); auto; try lia; [rewrite zlen_repeat; reflexivity|]. exists sa. auto.
Qed.
Theorem C31_index_end_to_end : forall x64 raw t16 sort8 sort16 place junk, vsrt_ok sort8 -> srt_ok Z.gtb sort16 -> zlen junk = 256 ->
  forall text skip, text_ok raw t16 text -> 0 < skip < 2 ^ 31 ->
  exists m, fm_init x64 raw t16 repo_sais sort8 sort16 place junk (fm_new t16) text skip = Ok m /\ index_of x64 raw t16 skip text m.
Proof. intros. apply C31_index; auto. apply C64_meets_C31. Qed.

(** ** non-vacuity *)
Definition banana : list Z := [98; 97; 110; 97; 110; 97].
Example C64_nonvacuous : 0 < 256 < 2 ^ 31 /\ zlen banana < 2 ^ 31 /\ over 256 banana /\ zlen (repeat 7 6) = zlen banana.
Proof. split; [lia|]. split; [reflexivity|]. split; [repeat constructor; lia|reflexivity]. Qed.
(** a text whose reduced problem needs the recursion (equal names) *)
Definition deep : list Z := [2; 1; 2; 1; 2; 1; 2; 1; 1; 2; 1; 2; 1; 0; 1; 0; 2; 1; 2; 1].
Example C64_demo : saisxx (fun _ _ => true) banana (repeat 7 6) 6 128 = Ok (0, Some [5; 3; 1; 0; 4; 2]) /\
  saisxx (fun _ _ => true) deep (repeat 7 20) 20 3 = Ok (0, Some [13; 15; 19; 12; 14; 7; 17; 10; 5; 8; 3; 1; 18; 11; 6; 16; 9; 4; 2; 0]) /\
  saisxx (fun d s => s) banana (repeat 7 6) 6 128 = Ok (-2, None).
Proof. split; [vm_compute; reflexivity|]. split; vm_compute; reflexivity. Qed.
Example C64_demo_recurses : sort_lms (fun _ _ _ _ => Exn) true deep (repeat 7 20) 0 3 = Exn.
Proof. vm_compute. reflexivity. Qed.

Print Assumptions C64_suffix_array.
Print Assumptions C64_success.
Print Assumptions C64_unique.
Print Assumptions C64_refused.
Print Assumptions C64_meets_C31.
Print Assumptions C31_index_end_to_end.
