(** Properties of [Stack]. [O] stands for whatever else is alive: the pointers of all other
    handles. [sound h O] says that the counts in [h] are exact for [O] and the cells.
    [bomb] says which calls of the user's [T::clone] panic. *)
From Coq Require Import List Arith Bool ZArith Lia.
From Verif Require Import Base Heap HeapProofs StackModel StackSpec StackProofs StackHistProofs.
Import ListNotations.
Open Scope nat_scope.

(** ** Sample: three handles; 0 and 1 share the cells of [3;2;1], and 1 has 9 on top. *)
Definition never (_ : nat) : bool := false.
Definition demo_ops : list (@sop nat) := [OFrom [1; 2; 3]; OClone 0; OPush 1 9; OFrom [7]].
Definition demo := match run never Nat.eqb Nat.compare (empty_heap, []) demo_ops with
                   | Ok (x, _) => x | Panic => (empty_heap, []) end.
Definition dh := fst demo.
Definition dhs := snd demo.
Definition d0 := Stk 3 (Some 2).
Definition d1 := Stk 4 (Some 3).
Definition d2 := Stk 1 (Some 4).
Example demo_handles : dhs = [Some d0; Some d1; Some d2].
Proof. reflexivity. Qed.
Example demo_shows : shows dh d0 [3; 2; 1] /\ shows dh d1 [9; 3; 2; 1] /\ shows dh d2 [7].
Proof.
  assert (D0 : den dh (Some 0) (chain [1])).
  { change (chain [1]) with (VT (nd_data (Nd 1 [None])) [VN]). econstructor; [reflexivity|repeat constructor]. }
  assert (D1 : den dh (Some 1) (chain [2; 1])).
  { change (chain [2; 1]) with (VT (nd_data (Nd 2 [Some 0])) [chain [1]]).
    econstructor; [reflexivity|repeat constructor; auto]. }
  assert (D2 : den dh (Some 2) (chain [3; 2; 1])).
  { change (chain [3; 2; 1]) with (VT (nd_data (Nd 3 [Some 1])) [chain [2; 1]]).
    econstructor; [reflexivity|repeat constructor; auto]. }
  repeat split; auto.
  - change (chain [9; 3; 2; 1]) with (VT (nd_data (Nd 9 [Some 2])) [chain [3; 2; 1]]).
    econstructor; [reflexivity|repeat constructor; auto].
  - change (chain [7]) with (VT (nd_data (Nd 7 [None])) [VN]). econstructor; [reflexivity|repeat constructor].
Qed.
Example demo_sound : sound dh (held dhs).
Proof.
  destruct (run_ok never Nat.eqb Nat.compare demo_ops empty_heap [] []) as (h & hs & rs & w & E & _ & S & _).
  - exact empty_ok.
  - constructor.
  - unfold dh, dhs, demo. rewrite E. exact S.
Qed.
Example demo_sound0 : sound dh (olist (selems d0) ++ [3; 4]).
Proof. exact demo_sound. Qed.

(** ** C45 *)
Theorem C45_push : forall (T : Type) (h : heap T) s l v O,
  sound h (olist (selems s) ++ O) -> shows h s l ->
  exists h' s', s_push h s v = (h', s')
    /\ sound h' (olist (selems s') ++ O) /\ shows h' s' (v :: l) /\ frame O h h'
    /\ clones h' = clones h /\ length (cells h') = S (length (cells h)).
Proof. intros T. exact push_ok. Qed.
Print Assumptions C45_push.
Example C45_push_ex : let '(h', s') := s_push dh d0 5 in s_iter h' s' 5 = Ok [Some 5; Some 3; Some 2; Some 1; None].
Proof. reflexivity. Qed.

Theorem C45_pop : forall (T : Type) bomb (h : heap T) s l O,
  sound h (olist (selems s) ++ O) -> shows h s l -> (forall n, bomb n = false) ->
  exists h' s', s_pop bomb h s = Ok (h', s', Done (hd_error l))
    /\ sound h' (olist (selems s') ++ O) /\ shows h' s' (tl l) /\ frame O h h'.
Proof.
  intros T bomb h s l O I S B. destruct (pop_ok bomb h s l O I S) as (h' & s' & o & E & I' & F' & S' & Ho & _).
  exists h', s'. destruct Ho as [->|(_ & _ & Hb & _)]; auto. rewrite B in Hb. discriminate.
Qed.
Print Assumptions C45_pop.
Example C45_pop_ex : exists h' s', s_pop never dh d0 = Ok (h', s', Done (Some 3)) /\ s_top h' s' = Ok (Some 2).
Proof. repeat eexists. Qed.

Theorem C45_observe : forall (T : Type) (h : heap T) s l eqb n x, shows h s l ->
  s_top h s = Ok (hd_error l)
  /\ s_len s = length l
  /\ (s_is_empty s = true <-> l = [])
  /\ s_iter h s n = Ok (nexts n l)
  /\ s_contains eqb h s x = Ok (existsb (eqb x) l).
Proof.
  intros T h s l eqb n x S. split; [now apply top_ok|]. split; [apply S|]. split.
  { unfold s_is_empty. destruct S as [-> _]. rewrite Nat.eqb_eq. destruct l; cbn; split; congruence. }
  split; [now apply iter_ok|now apply contains_ok].
Qed.
Print Assumptions C45_observe.
Example C45_observe_ex : s_contains Nat.eqb dh d1 2 = Ok true /\ s_contains Nat.eqb dh d1 7 = Ok false.
Proof. split; reflexivity. Qed.

(** All handles, all calls, all sharing, all panics of [T::clone]: the outcomes are those
    of plain lists, and nothing goes wrong. *)
Theorem C45_histories : forall (T : Type) bomb eqb cmp (os : list (@sop T)),
  exists h hs rs w, run bomb eqb cmp (empty_heap, []) os = Ok ((h, hs), rs)
    /\ sps eqb cmp os [] rs w /\ sound h (held hs) /\ shown h hs w
    /\ ((forall n, bomb n = false) -> ~ In Unwound rs).
Proof.
  intros T bomb eqb cmp os. apply run_ok; [exact empty_ok|constructor].
Qed.
Print Assumptions C45_histories.
Example C45_histories_ex :
  match run never Nat.eqb Nat.compare (empty_heap, [])
    (demo_ops ++ [OPop 0; OTopMut 1 S; OIter 1 5; OIter 0 2; OEq 0 1; ORemove 1 1; OSplitOff 1 1; OIter 1 1; OIter 3 3; ORemove 2 4]) with
  | Ok (_, rs) => skipn 4 rs = [Done (VOpt (Some 3)); Done (VOpt (Some 9));
      Done (VItems [Some 10; Some 3; Some 2; Some 1; None]); Done (VItems [Some 2; Some 1]); Done (VBool false);
      Done (VVal 2); Done VUnit; Done (VItems [Some 1]); Done (VItems [Some 10; Some 3; None]); IndexPanic]
  | Panic => False
  end.
Proof. reflexivity. Qed.

(** ** C46 *)
Theorem C46_remove : forall (T : Type) bomb (h : heap T) s l i O,
  sound h (olist (selems s) ++ O) -> shows h s l -> (forall n, bomb n = false) ->
  exists h' s' o, s_remove bomb h s i = Ok (h', s', o)
    /\ sound h' (olist (selems s') ++ O) /\ frame O h h'
    /\ match nth_error (rev l) i with
       | Some x => o = Done x /\ shows h' s' (rev (firstn i (rev l) ++ skipn (S i) (rev l)))
       | None => o = IndexPanic /\ h' = h /\ s' = s
       end.
Proof.
  intros T bomb h s l i O I S B. destruct (remove_ok bomb h s l i O I S) as (h' & s' & o & E & I' & F' & R).
  exists h', s', o. split; auto. split; auto. split; auto. destruct (nth_error (rev l) i) as [x|]; auto.
  destruct R as [(S' & Ho & _)|(_ & _ & b & Hb)]; [|rewrite B in Hb; discriminate].
  split; auto. destruct Ho as [Ho|(_ & b & Hb)]; auto. rewrite B in Hb. discriminate.
Qed.
Print Assumptions C46_remove.
Theorem C46_remove_panics_iff : forall (T : Type) bomb (h : heap T) s l i O,
  sound h (olist (selems s) ++ O) -> shows h s l ->
  exists h' s' o, s_remove bomb h s i = Ok (h', s', o) /\ (o = IndexPanic <-> length l <= i).
Proof.
  intros T bomb h s l i O I S. destruct (remove_ok bomb h s l i O I S) as (h' & s' & o & E & _ & _ & R).
  exists h', s', o. split; auto. rewrite <- (rev_length l), <- nth_error_None.
  destruct (nth_error (rev l) i) as [x|].
  - split; [|discriminate]. intros ->. destruct R as [(_ & [H|[H _]] & _)|(_ & H & _)]; discriminate.
  - destruct R as [-> _]. tauto.
Qed.
Print Assumptions C46_remove_panics_iff.
Example C46_remove_ex : exists h' s', s_remove never dh d1 0 = Ok (h', s', Done 1)
  /\ s_iter h' s' 4 = Ok [Some 9; Some 3; Some 2; None] /\ s_iter h' d0 4 = Ok [Some 3; Some 2; Some 1; None].
Proof. repeat eexists. Qed.

(** ** C47 *)
Theorem C47_split_off : forall (T : Type) bomb (h : heap T) s l i O,
  sound h (olist (selems s) ++ O) -> shows h s l -> (forall n, bomb n = false) ->
  exists h' s' o, s_split_off bomb h s i = Ok (h', s', o) /\ frame O h h'
    /\ match o with
       | Done t => i <= length l /\ sound h' (olist (selems s') ++ olist (selems t) ++ O)
                   /\ shows h' s' (rev (firstn i (rev l))) /\ shows h' t (rev (skipn i (rev l)))
       | IndexPanic => length l < i /\ h' = h /\ s' = s
       | Unwound => False
       end.
Proof.
  intros T bomb h s l i O I S B. destruct (split_off_ok bomb h s l i O I S) as (h' & s' & o & E & F' & R).
  exists h', s', o. split; auto. split; auto. destruct o as [t| |]; [tauto|auto|].
  destruct R as (_ & _ & _ & b & Hb). rewrite B in Hb. discriminate.
Qed.
Print Assumptions C47_split_off.
Example C47_split_off_ex : exists h' s' t, s_split_off never dh d1 1 = Ok (h', s', Done t)
  /\ s_iter h' s' 2 = Ok [Some 1; None] /\ s_iter h' t 4 = Ok [Some 9; Some 3; Some 2; None]
  /\ s_len s' = 1 /\ s_len t = 3 /\ s_iter h' d0 4 = Ok [Some 3; Some 2; Some 1; None].
Proof. repeat eexists. Qed.

(** ** C48 *)
Theorem C48_independent : forall (T : Type) bomb eqb cmp (h : heap T) hs w o,
  sound h (held hs) -> shown h hs w ->
  exists h' hs' r, step bomb eqb cmp (h, hs) o = Ok ((h', hs'), r)
    /\ forall j s l, target o <> Some j -> nth j hs None = Some s -> shows h s l ->
         nth j hs' None = Some s /\ shows h' s l.
Proof. exact @independent. Qed.
Print Assumptions C48_independent.
Example C48_independent_ex :
  match run never Nat.eqb Nat.compare (dh, dhs) [OIterMut 1 [S; S; S; S]; OIter 1 4; OIter 0 3] with
  | Ok (_, rs) => rs = [Done (VItems [Some 9; Some 3; Some 2; Some 1]); Done (VItems [Some 10; Some 4; Some 3; Some 2]);
                        Done (VItems [Some 3; Some 2; Some 1])]
  | Panic => False
  end.
Proof. reflexivity. Qed.

Theorem C48_clone : forall (T : Type) (h : heap T) s l O,
  sound h (olist (selems s) ++ O) -> shows h s l ->
  exists h', s_clone h s = Ok (h', s)
    /\ sound h' (olist (selems s) ++ olist (selems s) ++ O) /\ shows h' s l
    /\ frame (olist (selems s) ++ O) h h'
    /\ clones h' = clones h /\ length (cells h') = length (cells h).
Proof. intros T. exact clone_ok. Qed.
Print Assumptions C48_clone.
Example C48_clone_ex : exists h', s_clone dh d1 = Ok (h', d1) /\ s_iter h' d1 1 = Ok [Some 9].
Proof. repeat eexists. Qed.

Theorem C48_writes : forall (T : Type) bomb (h : heap T) s l f fs O,
  sound h (olist (selems s) ++ O) -> shows h s l -> (forall n, bomb n = false) ->
  (exists h' s', s_top_mut bomb h s f = Ok (h', s', Done (hd_error l))
     /\ sound h' (olist (selems s') ++ O) /\ shows h' s' (write [f] l) /\ frame O h h')
  /\ (exists h' s', s_iter_mut bomb h s fs = Ok (h', s', nexts (length fs) l, true)
     /\ sound h' (olist (selems s') ++ O) /\ shows h' s' (write fs l) /\ frame O h h').
Proof.
  intros T bomb h s l f fs O I S B. split.
  - destruct (top_mut_ok bomb h s l f O I S) as (h' & s' & o & E & I' & F' & R). exists h', s'.
    destruct o as [v| |]; [|destruct R|destruct R as (_ & b & Hb); rewrite B in Hb; discriminate].
    destruct R as (-> & S' & _). auto.
  - destruct (iter_mut_ok bomb h s l fs O I S) as (h' & s' & xs & ok & E & I' & F' & R). exists h', s'.
    destruct ok; [|destruct R as (n & _ & _ & _ & _ & b & Hb); rewrite B in Hb; discriminate].
    destruct R as (-> & S' & _). auto.
Qed.
Print Assumptions C48_writes.
Example C48_writes_ex : exists h' s', s_iter_mut never dh d0 [S; S] = Ok (h', s', [Some 3; Some 2], true)
  /\ s_iter h' s' 3 = Ok [Some 4; Some 3; Some 1] /\ s_iter h' d1 4 = Ok [Some 9; Some 3; Some 2; Some 1].
Proof. repeat eexists. Qed.

(** ** C49 *)
Theorem C49_counts : forall (T : Type) bomb eqb cmp (os : list (@sop T)) h hs rs,
  run bomb eqb cmp (empty_heap, []) os = Ok ((h, hs), rs) ->
  forall a, match get h a with
            | Some (c, _) => c = count_occ Nat.eq_dec (held hs ++ ptrs h) a /\ 1 <= c
            | None => ~ In a (held hs ++ ptrs h)
            end.
Proof.
  intros T bomb eqb cmp os h hs rs E.
  destruct (run_ok bomb eqb cmp os empty_heap [] []) as (h' & hs' & rs' & w & E' & _ & [W _] & _).
  { exact empty_ok. } { constructor. }
  rewrite E in E'. injection E' as <- <- <-. intros a. specialize (W a). destruct (get h a) as [[n nd]|]; auto.
  now apply cnt_notin.
Qed.
Print Assumptions C49_counts.
Theorem C49_no_leak : forall (T : Type) bomb eqb cmp (os : list (@sop T)) h hs rs,
  run bomb eqb cmp (empty_heap, []) os = Ok ((h, hs), rs) ->
  (forall s, ~ In (Some s) hs) -> forall a, get h a = None.
Proof.
  intros T bomb eqb cmp os h hs rs E Hd.
  destruct (run_ok bomb eqb cmp os empty_heap [] []) as (h' & hs' & rs' & w & E' & _ & [W A] & _).
  { exact empty_ok. } { constructor. }
  rewrite E in E'. injection E' as <- <- <-. apply no_leak; auto.
  assert (Hh : held hs = []).
  { clear - Hd. induction hs as [|[s|] hs IH]; cbn; auto.
    - exfalso. apply (Hd s). now left.
    - apply IH. intros s Hs. apply (Hd s). now right. }
  now rewrite <- Hh.
Qed.
Print Assumptions C49_no_leak.
(** [clear] and [drop] free what only this handle owned, cell by cell: [drop_flat], which
    is all they use, fails if it would have to go on to another cell. *)
Theorem C49_clear : forall (T : Type) (h : heap T) s l O,
  sound h (olist (selems s) ++ O) -> shows h s l ->
  exists h', s_clear h s = Ok (h', s_new) /\ s_drop h s = Ok h' /\ sound h' O /\ frame O h h' /\ clones h' = clones h.
Proof.
  intros T h s l O I S. destruct (clear_ok h s l O I S) as (h' & E & I' & F' & C' & _).
  exists h'. unfold s_drop. rewrite E. auto.
Qed.
Print Assumptions C49_clear.
Example C49_ex :
  match run never Nat.eqb Nat.compare (dh, dhs) [ODrop 1; OPop 0; ODrop 0; OClear 2; ODrop 2] with
  | Ok ((h, hs), _) => cells h = [None; None; None; None; None] /\ hs = [None; None; None]
  | Panic => False
  end.
Proof. split; reflexivity. Qed.

(** ** C50 *)
Theorem C50_pop_moves_iff_unshared : forall (T : Type) bomb (h : heap T) a n x l O,
  sound h (a :: O) -> shows h (Stk n (Some a)) (x :: l) ->
  exists h' s' o, s_pop bomb h (Stk n (Some a)) = Ok (h', s', o)
    /\ clones h' = (if in_dec Nat.eq_dec a (O ++ ptrs h) then [x] else []) ++ clones h
    /\ (o = Done (Some x) \/ o = Unwound /\ bomb (length (clones h)) = true /\ In a (O ++ ptrs h))
    /\ length (cells h') = length (cells h).
Proof.
  intros T bomb h a n x l O I S. destruct (pop_ok bomb h (Stk n (Some a)) (x :: l) O I S) as (h' & s' & o & E & I' & F' & S' & Ho & C' & L').
  exists h', s', o. split; auto.
  destruct S as [_ D]. cbn [selems] in *. destruct (den_chain_some h a _ D) as (x0 & l0 & c & p & E0 & G & _). injection E0 as <- <-.
  destruct I as [W _]. pose proof (W a) as Wa. rewrite G in Wa. cbn [app] in Wa. rewrite cnt_cons in Wa.
  destruct (Nat.eq_dec a a); [|congruence]. cbn [lead] in *. rewrite G in *.
  destruct (in_dec Nat.eq_dec a (O ++ ptrs h)) as [Hi|Hi].
  - assert (Hi' := Hi). apply cnt_in in Hi'. 
    replace (match c with 1 => 1 | _ => 0 end) with 0 in * by (destruct c as [|[|c]]; auto; lia).
    split; [exact C'|]. split; auto. destruct Ho as [->|(-> & _ & B & _)]; auto.
  - apply cnt_notin in Hi. rewrite Hi in Wa. destruct Wa as [-> _]. split; [exact C'|]. split; auto.
    destruct Ho as [->|(-> & _ & B & Z0)]; auto. discriminate.
Qed.
Print Assumptions C50_pop_moves_iff_unshared.
(** With [k] cells at the top that nothing else points at, a walk that reaches the first [m]
    elements clones those after the first [k], and no others. *)
Theorem C50_copies : forall (T : Type) bomb (h : heap T) s l i fs n O,
  sound h (olist (selems s) ++ O) -> shows h s l -> (forall n, bomb n = false) ->
  let k := lead (length l) h (selems s) in
  let copies m := rev (skipn k (firstn m l)) ++ clones h in
  (exists h' s' xs, s_iter_mut bomb h s fs = Ok (h', s', xs, true) /\ clones h' = copies (length fs))
  /\ (i < length l -> exists h' s' x, s_remove bomb h s i = Ok (h', s', Done x) /\ clones h' = copies (length l - i))
  /\ (0 < i <= length l -> exists h' s' t, s_split_off bomb h s i = Ok (h', s', Done t) /\ clones h' = copies (length l - i))
  /\ (exists h' xs, into_run bomb n h s = Ok (h', xs, true) /\ xs = nexts n l /\ clones h' = copies n).
Proof.
  intros T bomb h s l i fs n O I S B k copies. split; [|split; [|split]].
  - destruct (iter_mut_ok bomb h s l fs O I S) as (h' & s' & xs & ok & E & _ & _ & R). exists h', s', xs.
    destruct ok; [|destruct R as (m & _ & _ & _ & _ & b & Hb); rewrite B in Hb; discriminate].
    split; auto. apply R.
  - intros Hi. destruct (remove_ok bomb h s l i O I S) as (h' & s' & o & E & _ & _ & R).
    destruct (nth_error (rev l) i) as [x|] eqn:Ex.
    2:{ apply nth_error_None in Ex. rewrite rev_length in Ex. lia. }
    destruct R as [(_ & Ho & C)|(_ & _ & b & Hb)]; [|rewrite B in Hb; discriminate].
    exists h', s', x. destruct Ho as [->|(_ & b & Hb)]; [auto|rewrite B in Hb; discriminate].
  - intros Hi. destruct (split_off_ok bomb h s l i O I S) as (h' & s' & o & E & _ & R).
    destruct o as [t| |]; [|lia|].
    + destruct R as (_ & _ & _ & _ & C). exists h', s', t. split; auto.
      destruct (Nat.eqb_spec i 0); [lia|]. exact C.
    + destruct R as (_ & _ & _ & b & Hb). rewrite B in Hb. discriminate.
  - destruct (into_run_ok bomb n h s l O I S) as (h' & xs & ok & E & _ & _ & R).
    destruct ok; [|destruct R as (_ & b & Hb); rewrite B in Hb; discriminate].
    exists h', xs. destruct R. auto.
Qed.
Print Assumptions C50_copies.
Example C50_ex : lead 4 dh (selems d1) = 1 /\ exists h' s' x, s_remove never dh d1 1 = Ok (h', s', Done x) /\ clones h' = [2; 3].
Proof. split; [reflexivity|]. repeat eexists. Qed.

(** ** C51 *)
Theorem C51_eq_cmp : forall (T : Type) (h : heap T) s t l r eqb cmp pc, shows h s l -> shows h t r ->
  s_eq eqb h s t = Ok (leqb eqb l r) /\ s_cmp cmp h s t = Ok (lcmp cmp l r)
  /\ s_partial_cmp pc h s t = Ok (lpcmp pc l r).
Proof.
  intros. split; [now apply eq_ok|]. split; [now apply cmp_ok|now apply partial_cmp_ok].
Qed.
Print Assumptions C51_eq_cmp.
Theorem C51_total_order : forall (T : Type) (eqb : T -> T -> bool) cmp, order_laws cmp ->
  (forall x y, eqb x y = true <-> cmp x y = Eq) ->
  order_laws (lcmp cmp)
  /\ (forall l r, leqb eqb l r = true <-> lcmp cmp l r = Eq)
  /\ (forall l r, lpcmp (fun x y => Some (cmp x y)) l r = Some (lcmp cmp l r)).
Proof.
  intros T eqb cmp L He. split; [now apply lcmp_laws|]. split; [intros; now apply lcmp_leqb|].
  induction l as [|x l IH]; intros [|y r]; cbn; auto. destruct (cmp x y); auto.
Qed.
Print Assumptions C51_total_order.
Example C51_ex : s_eq Nat.eqb dh d0 d0 = Ok true /\ s_eq Nat.eqb dh d0 d1 = Ok false
  /\ s_cmp Nat.compare dh d0 d1 = Ok Lt /\ s_cmp Nat.compare dh d2 d0 = Ok Gt
  /\ order_laws Nat.compare /\ (forall x y, Nat.eqb x y = true <-> Nat.compare x y = Eq).
Proof.
  repeat split; try reflexivity.
  - intros x y. apply Nat.compare_antisym.
  - intros x y z. rewrite !Nat.compare_lt_iff. lia.
  - intros x y z H. apply Nat.compare_eq_iff in H. now subst.
  - rewrite Nat.eqb_eq, Nat.compare_eq_iff. auto.
  - rewrite Nat.eqb_eq, Nat.compare_eq_iff. auto.
Qed.

(** ** C52 *)
Theorem C52_extend : forall (T : Type) vs (h : heap T) s l O,
  sound h (olist (selems s) ++ O) -> shows h s l ->
  exists h' s', s_extend h s vs = (h', s')
    /\ sound h' (olist (selems s') ++ O) /\ shows h' s' (rev vs ++ l) /\ frame O h h'
    /\ clones h' = clones h /\ length (cells h') = length vs + length (cells h).
Proof. intros T. exact extend_ok. Qed.
Print Assumptions C52_extend.
Theorem C52_from_iter : forall (T : Type) vs (h : heap T) O, sound h O ->
  exists h' s', s_from_iter h vs = (h', s') /\ sound h' (olist (selems s') ++ O) /\ shows h' s' (rev vs) /\ frame O h h'.
Proof.
  intros T vs h O I. destruct (extend_ok vs h s_new [] O I (new_ok h)) as (h' & s' & E & I' & S' & F' & _).
  exists h', s'. rewrite app_nil_r in S'. auto.
Qed.
Print Assumptions C52_from_iter.
Example C52_ex : let '(h', s') := s_extend dh d0 [4; 5] in
  s_iter h' s' 6 = Ok [Some 5; Some 4; Some 3; Some 2; Some 1; None].
Proof. reflexivity. Qed.

(** ** C58: a panic in [T::clone] leaves every handle usable. *)
Theorem C58_unwind : forall (T : Type) bomb (h : heap T) s l i f fs O,
  sound h (olist (selems s) ++ O) -> shows h s l ->
  (forall h' s', s_pop bomb h s = Ok (h', s', Unwound) ->
     sound h' (olist (selems s') ++ O) /\ frame O h h' /\ shows h' s' (tl l))
  /\ (forall h' s', s_top_mut bomb h s f = Ok (h', s', Unwound) ->
     sound h' (olist (selems s') ++ O) /\ frame O h h' /\ shows h' s' l)
  /\ (forall h' s', s_split_off bomb h s i = Ok (h', s', Unwound) ->
     sound h' (olist (selems s') ++ O) /\ frame O h h' /\ shows h' s' l)
  /\ (forall h' s', s_remove bomb h s i = Ok (h', s', Unwound) ->
     sound h' (olist (selems s') ++ O) /\ frame O h h' /\ (shows h' s' l \/ shows h' s' (removed l i)))
  /\ (forall h' s' xs, s_iter_mut bomb h s fs = Ok (h', s', xs, false) ->
     sound h' (olist (selems s') ++ O) /\ frame O h h'
     /\ exists n, n < length fs /\ n < length l /\ xs = nexts n l /\ shows h' s' (write (firstn n fs) l)).
Proof.
  intros T bomb h s l i f fs O I S. repeat match goal with |- _ /\ _ => split end.
  - intros h' s' E. destruct (pop_ok bomb h s l O I S) as (h1 & s1 & o & E1 & R). rewrite E in E1. injection E1 as <- <- <-. tauto.
  - intros h' s' E. destruct (top_mut_ok bomb h s l f O I S) as (h1 & s1 & o & E1 & R). rewrite E in E1. injection E1 as <- <- <-. tauto.
  - intros h' s' E. destruct (split_off_ok bomb h s l i O I S) as (h1 & s1 & o & E1 & R). rewrite E in E1. injection E1 as <- <- <-. tauto.
  - intros h' s' E. destruct (remove_ok bomb h s l i O I S) as (h1 & s1 & o & E1 & R). rewrite E in E1. injection E1 as <- <- <-.
    destruct (nth_error (rev l) i); [|destruct R as (_ & _ & R & _); discriminate]. tauto.
  - intros h' s' xs E. destruct (iter_mut_ok bomb h s l fs O I S) as (h1 & s1 & xs1 & ok & E1 & I1 & F1 & R).
    rewrite E in E1. injection E1 as <- <- <- <-. split; auto. split; auto. destruct R as (n & R). exists n. tauto.
Qed.
Print Assumptions C58_unwind.
(** The second clone panics: the removal is not done; the third: the element is lost. *)
Example C58_ex :
  (exists h' s', s_remove (fun n => n =? 1) dh d1 0 = Ok (h', s', Unwound) /\ s_iter h' s' 5 = Ok [Some 9; Some 3; Some 2; Some 1; None])
  /\ (exists h' s', s_remove (fun n => n =? 2) dh d1 0 = Ok (h', s', Unwound) /\ s_iter h' s' 5 = Ok [Some 9; Some 3; Some 2; None; None]
      /\ s_len s' = 3).
Proof. split; repeat eexists. Qed.
