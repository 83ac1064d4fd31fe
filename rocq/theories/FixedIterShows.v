(** The iterators of the array-based B-tree map in terms of [f_shows]; node splits in terms of slots. *)
From Coq Require Import List PeanoNat Bool Lia Permutation.
From Verif Require Import Base Spec Vec BTreeProofs FixedModel FixedIterModel FixedSpec FixedProofs FixedProofs3 FixedShows FixedIterProofs.
Import ListNotations.

Section Iters.
  Context {K V Q : Type} (bor : K -> Q) (cmp : Q -> Q -> comparison).
  Notation f_shows := (@f_shows K V Q bor cmp).
  Notation entry := (K * V)%type.

  Lemma start_borrowed (m : f_map K V) l : f_shows m l -> exists w ls, fixed_iter m = Ok (FIter w (length (concat ls)))
    /\ Forall2 ni_rest w ls /\ concat ls = l /\ concat (rev ls) = l.
  Proof.
    intros (_ & L & R). unfold fixed_iter, fi_new. rewrite L. destruct (fm_root m) as [n|].
    - destruct R as [h R]. destruct (ni_new_ok n l) as (i & Ei & Ri & _); [exists 1, h; auto|].
      cbn [na_new borrowed]. rewrite Ei. cbn [bind]. exists [i], [l]. cbn [concat rev app]. rewrite app_nil_r. auto.
    - subst l. exists [], []. cbn. auto.
  Qed.
  Lemma start_owning un (m : f_map K V) l : f_shows m l -> exists w ls, fixed_into_iter un m = Ok (FIter w (length (concat ls)))
    /\ Forall2 no_rest w ls /\ concat ls = l /\ concat (rev ls) = l
    /\ ((forall n, un n = true) -> Forall2 no_rest_owned w ls).
  Proof.
    intros (_ & L & R). unfold fixed_into_iter, fi_new. rewrite L. destruct (fm_root m) as [n|]; cbn [option_map].
    - destruct R as [h R]. destruct (no_new_ok (if un n then Owned n else Leased n) l) as (i & Ei & Ri & _ & En & _).
      { unfold ol_holds. replace (ol_node _) with n by now destruct (un n). exists 1, h; auto. }
      cbn [na_new owning]. rewrite Ei. cbn [bind]. exists [i], [l]. cbn [concat rev app]. rewrite app_nil_r.
      split; auto. split; auto. split; auto. split; auto. intros U. constructor; auto. split; auto. unfold owned. now rewrite En, U.
    - subst l. exists [], []. cbn. auto 6.
  Qed.

  Lemma iter_front m l cs : f_shows m l -> Forall (fun c => c = Front) cs ->
    runs borrowed (fixed_iter m) cs (s_ends cs l) /\ forall un, runs (owning un) (fixed_into_iter un m) cs (s_ends cs l).
  Proof.
    intros H A. split.
    - destruct (start_borrowed m l H) as (w & ls & E & F & El & _).
      destruct (run_front borrowed ni_rest ni_next_ok cs w ls F A) as (w' & ls' & Er & _). rewrite El in *. eexists _, _. eauto.
    - intros un. destruct (start_owning un m l H) as (w & ls & E & F & El & _).
      destruct (run_front (owning un) no_rest (no_next_ok un) cs w ls F A) as (w' & ls' & Er & _). rewrite El in *. eexists _, _. eauto.
  Qed.
  Lemma iter_back m l cs : f_shows m l -> Forall (fun c => c = Back) cs ->
    runs borrowed (fixed_iter m) cs (s_ends (map (fun _ => Front) cs) l)
    /\ forall un, runs (owning un) (fixed_into_iter un m) cs (s_ends (map (fun _ => Front) cs) l).
  Proof.
    intros H A. split.
    - destruct (start_borrowed m l H) as (w & ls & E & F & El & Er').
      destruct (run_back borrowed ni_rest ni_next_ok cs w ls F A) as (w' & ls' & Er & _). rewrite El in *. rewrite Er' in *. eexists _, _. eauto.
    - intros un. destruct (start_owning un m l H) as (w & ls & E & F & El & Er' & _).
      destruct (run_back (owning un) no_rest (no_next_ok un) cs w ls F A) as (w' & ls' & Er & _). rewrite El in *. rewrite Er' in *. eexists _, _. eauto.
  Qed.
  Lemma iter_any m l cs : f_shows m l ->
    (exists p, Permutation p l /\ runs borrowed (fixed_iter m) cs (s_ends (map (fun _ => Front) cs) p))
    /\ forall un, exists p, Permutation p l /\ runs (owning un) (fixed_into_iter un m) cs (s_ends (map (fun _ => Front) cs) p).
  Proof.
    intros H. split.
    - destruct (start_borrowed m l H) as (w & ls & E & F & El & _).
      destruct (run_any borrowed ni_rest ni_next_ok cs w ls F) as (p & w' & ls' & P & Er & _). rewrite El in *.
      exists p. split; auto. eexists _, _. eauto.
    - intros un. destruct (start_owning un m l H) as (w & ls & E & F & El & _).
      destruct (run_any (owning un) no_rest (no_next_ok un) cs w ls F) as (p & w' & ls' & P & Er & _). rewrite El in *.
      exists p. split; auto. eexists _, _. eauto.
  Qed.

  Lemma got_fronts {A} (cs : list end_call) : forall p : list A, got (s_ends (map (fun _ => Front) cs) p) = firstn (length cs) p.
  Proof.
    induction cs as [|c cs IH]; intros p; cbn [map s_ends got flat_map length firstn]; auto.
    destruct p as [|x p]; cbn [hd_error fst tl app].
    - fold (got (s_ends (map (fun _ : end_call => Front) cs) (@nil A))). rewrite IH. now rewrite firstn_nil.
    - f_equal. apply IH.
  Qed.

  Lemma node_holds_all (ns : list (fnode K V)) kls : Forall2 node_holds ns kls -> hold_all ns (concat kls).
  Proof.
    intros F. exists kls. split; auto. induction F as [|n l ns kls (lo & h & _ & X) F IH]; constructor; eauto.
  Qed.
  Lemma drop_after (un : fnode K V -> bool) (R : node_into_iter K V -> list entry -> Prop) w ls cs :
    next_good (owning un) R -> (forall i l, R i l -> no_rest i l) -> Forall2 R w ls ->
    exists rs it' es ns lk left, fi_run (owning un) cs (FIter w (length (concat ls))) = Ok (rs, it')
      /\ fi_drop (fi_work it') = Ok (es, ns) /\ hold_all ns lk
      /\ Permutation (got rs ++ es ++ lk ++ left) (concat ls) /\ ((forall i l, R i l -> owned i) -> left = []).
  Proof.
    intros G RR F. destruct (run_any (owning un) R G cs w ls F) as (p & w' & ls' & P & Er & F' & P').
    assert (F2 : Forall2 no_rest w' ls') by (clear -F' RR; induction F'; auto).
    destruct (fi_drop_ok un w' ls' F2) as (es & ns & kls & X & Ed & Fk & PX & OX).
    exists (s_ends (map (fun _ => Front) cs) p), (FIter w' (length (concat ls'))), es, ns, (concat kls), X.
    split; auto. split; auto. split; [now apply node_holds_all|]. split.
    - rewrite got_fronts. rewrite PX, <- P'. now rewrite firstn_skipn.
    - intros O. apply OX. clear -F' O. induction F'; eauto.
  Qed.
  Lemma into_drop un (m : f_map K V) l cs : f_shows m l ->
    exists it rs it' es ns lk left,
      fixed_into_iter un m = Ok it /\ fi_run (owning un) cs it = Ok (rs, it') /\ fi_drop (fi_work it') = Ok (es, ns)
      /\ hold_all ns lk /\ Permutation (got rs ++ es ++ lk ++ left) l.
  Proof.
    intros H. destruct (start_owning un m l H) as (w & ls & E & F & El & _).
    destruct (drop_after un no_rest w ls cs (no_next_ok un) (fun _ _ X => X) F) as (rs & it' & es & ns & lk & left & Er & Ed & Hl & P & _).
    rewrite El in *. exists (FIter w (length l)), rs, it', es, ns, lk, left. auto.
  Qed.
  Lemma into_drop_owned un (m : f_map K V) l cs : f_shows m l -> (forall n, un n = true) ->
    exists it rs it' es ns lk,
      fixed_into_iter un m = Ok it /\ fi_run (owning un) cs it = Ok (rs, it') /\ fi_drop (fi_work it') = Ok (es, ns)
      /\ hold_all ns lk /\ Permutation (got rs ++ es ++ lk) l.
  Proof.
    intros H U. destruct (start_owning un m l H) as (w & ls & E & _ & El & _ & O). specialize (O U).
    destruct (drop_after un no_rest_owned w ls cs (no_next_owned un U) (fun _ _ X => proj1 X) O)
      as (rs & it' & es & ns & lk & left & Er & Ed & Hl & P & X).
    rewrite El in *. rewrite X, app_nil_r in P by (intros i x Hx; exact (proj2 Hx)).
    exists (FIter w (length l)), rs, it', es, ns, lk. auto 6.
  Qed.

  (** Splits in terms of slots. *)
  Lemma elems_at_iff (e : elems K V) (l : list entry) : elems_at e l <-> elems_are e l.
  Proof.
    unfold elems_at, elems_are. split; intros (A & B & C); split; [|split| |split]; auto; now apply begins_arr.
  Qed.
  Lemma kids_at_iff (d : kids (fnode K V)) ns : kids_at d ns <-> kids_are d ns.
  Proof. unfold kids_at, kids_are. split; intros (A & B); split; auto; now apply begins_arr. Qed.

  Lemma cut {A} k (l : list A) d : k < length l -> firstn k l ++ nth k l d :: skipn (S k) l = l.
  Proof.
    revert k. induction l as [|x l IH]; intros k H; cbn [length] in H; [lia|].
    destruct k as [|k]; [reflexivity|]. cbn [firstn nth app]. change (skipn (S (S k)) (x :: l)) with (skipn (S k) l).
    f_equal. apply IH. lia.
  Qed.
  Lemma split_leaf_l (e : elems K V) es1 es2 kv : length (es1 ++ es2) = 11 -> elems_at e (es1 ++ es2) ->
    exists lo div hi le he, ins_split (FNode e None) (length es1) None kv = Ok (FNode he None, FSplit (Some (FNode le None)) div)
      /\ elems_at le lo /\ elems_at he hi /\ lo ++ div :: hi = es1 ++ kv :: es2 /\ 5 <= length lo /\ 5 <= length hi.
  Proof.
    intros L H. apply elems_at_iff in H.
    assert (Li : length es1 <= MAX_OCCUPANCY) by (change MAX_OCCUPANCY with 11; rewrite app_length in L; lia).
    destruct (ins_split_leaf e _ (length es1) kv H L Li) as (le & he & E & Hl & Hh).
    rewrite put_mid in * by auto. set (k := lo_len (length es1)) in *. set (all := es1 ++ kv :: es2) in *.
    assert (La : length all = 12) by (unfold all; rewrite app_length in L |- *; cbn [length]; lia).
    assert (Hk : k = 5 \/ k = 6) by apply lo_len_cases.
    exists (firstn k all), (nth k all kv), (skipn (S k) all), le, he.
    split; auto. split; [now apply elems_at_iff|]. split; [now apply elems_at_iff|].
    split; [apply cut; lia|]. rewrite firstn_length, skipn_length. lia.
  Qed.
  Lemma split_branch_l (e : elems K V) d es1 es2 ns1 ns2 kid kv :
    length (es1 ++ es2) = 11 -> length (ns1 ++ ns2) = 12 -> length ns1 = length es1 ->
    elems_at e (es1 ++ es2) -> kids_at d (ns1 ++ ns2) ->
    exists lo div hi nlo nhi le he ld hd,
      ins_split (FNode e (Some d)) (length es1) (Some kid) kv
      = Ok (FNode he (Some hd), FSplit (Some (FNode le (Some ld))) div)
      /\ elems_at le lo /\ elems_at he hi /\ lo ++ div :: hi = es1 ++ kv :: es2 /\ 5 <= length lo /\ 5 <= length hi
      /\ kids_at ld nlo /\ kids_at hd nhi /\ nlo ++ nhi = ns1 ++ kid :: ns2
      /\ length nlo = length lo + 1 /\ length nhi = length hi + 1.
  Proof.
    intros L Ln L1 H Hd. apply elems_at_iff in H. apply kids_at_iff in Hd.
    assert (Li : length es1 <= MAX_OCCUPANCY) by (change MAX_OCCUPANCY with 11; rewrite app_length in L; lia).
    destruct (ins_split_branch e _ d _ (length es1) kid kv H Hd L Ln Li) as (le & he & ld & hd & E & Hl & Hh & Kl & Kh).
    rewrite (put_mid (length es1) kv) in * by auto. rewrite (put_mid (length es1) kid) in * by auto.
    set (k := lo_len (length es1)) in *. set (all := es1 ++ kv :: es2) in *. set (nall := ns1 ++ kid :: ns2) in *.
    assert (La : length all = 12) by (unfold all; rewrite app_length in L |- *; cbn [length]; lia).
    assert (Lna : length nall = 13) by (unfold nall; rewrite app_length in Ln |- *; cbn [length]; lia).
    assert (Hk : k = 5 \/ k = 6) by apply lo_len_cases.
    exists (firstn k all), (nth k all kv), (skipn (S k) all), (firstn (S k) nall), (skipn (S k) nall), le, he, ld, hd.
    split; auto. split; [now apply elems_at_iff|]. split; [now apply elems_at_iff|].
    split; [apply cut; lia|]. split; [rewrite firstn_length; lia|]. split; [rewrite skipn_length; lia|].
    split; [now apply kids_at_iff|]. split; [now apply kids_at_iff|]. split; [apply firstn_skipn|].
    rewrite !firstn_length, !skipn_length. lia.
  Qed.
End Iters.
