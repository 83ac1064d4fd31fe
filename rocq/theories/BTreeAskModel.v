(** [/repo/src/btree.rs] with comparisons that may panic or change their answers (see Ask.v): the functions of [BTreeModel]
    and [BTreeIterModel] that compare keys. *)
From Coq Require Import List PeanoNat Bool.
From Verif Require Import Base Spec Vec BTreeModel BTreeIterModel Ask.
Import ListNotations.

Section BTreeAsk.
  Context {K V Q : Type} (bor : K -> Q) (ask : nat -> Q -> Q -> option comparison).
  Context (N : nat).
  Notation bt := (bt K V).
  Notation ins_res := (ins_res K V).
  Notation bmap := (bt_map K V).
  Notation entry := (K * V)%type.

  (** The scan over the keys of a node (see [scan]). It changes nothing. *)
  Fixpoint scan_t (q : Q) (es : list entry) (n : nat) : trial unit (nat * comparison) :=
    match es with
    | [] => Returned tt (0, Gt) n
    | e :: es' =>
      question ask n q (bor (fst e)) tt (fun c n =>
      match c with
      | Gt => after (scan_t q es' n) (fun _ => tt) (fun _ '(i, c) n => Returned tt (S i, c) n)
      | c => Returned tt (0, c) n
      end)
    end.

  (** The recursive calls: [nth_error (map f kids) i] is the call [f] for child [i], as a function of the number of
      questions asked before it. *)

  (** btree.rs:91-105 [Node::get_key_value]. *)
  Fixpoint n_get_t (q : Q) (t : bt) (n : nat) : trial unit (option entry) :=
    match t with
    | BN es ks =>
      after (scan_t q es n) (fun _ => tt) (fun _ '(i, c) n =>
      match c with
      | Eq => Returned tt (nth_error es i) n
      | Lt => match nth_error (map (n_get_t q) ks) i with Some f => f n | None => Returned tt None n end
      | Gt => match last_opt (map (n_get_t q) ks) with Some f => f n | None => Returned tt None n end
      end)
    end.

  (** btree.rs:566-591 [contains_key]. *)
  Fixpoint n_contains_t (q : Q) (t : bt) (n : nat) : trial unit bool :=
    match t with
    | BN es ks =>
      after (scan_t q es n) (fun _ => tt) (fun _ '(i, c) n =>
      match c with
      | Eq => Returned tt true n
      | _ => match nth_error (map (n_contains_t q) ks) i with Some f => f n | None => Returned tt false n end
      end)
    end.

  (** btree.rs:107-129 [Node::get_mut]. *)
  Fixpoint n_get_mut_t (q : Q) (w : V -> V) (t : bt) (n : nat) : trial bt (option entry) :=
    match t with
    | BN es ks =>
      after (scan_t q es n) (fun _ => t) (fun _ '(i, c) n =>
      match c with
      | Eq =>
        match nth_error es i with
        | Some e => Returned (BN (set_at i (fst e, w (snd e)) es) ks) (Some e) n
        | None => Returned t None n
        end
      | Lt =>
        match nth_error (map (n_get_mut_t q w) ks) i with
        | Some f => after (f n) (fun c' => BN es (set_at i c' ks)) (fun c' r n => Returned (BN es (set_at i c' ks)) r n)
        | None => Returned t None n
        end
      | Gt =>
        match last_opt (map (n_get_mut_t q w) ks) with
        | Some f => after (f n) (fun c' => BN es (set_at (length ks - 1) c' ks))
                      (fun c' r n => Returned (BN es (set_at (length ks - 1) c' ks)) r n)
        | None => Returned t None n
        end
      end)
    end.

  (** btree.rs:131-178 [Node::insert]: the node is changed after the scan and after the call for the child. *)
  Fixpoint n_insert_t (k : K) (v : V) (t : bt) (n : nat) : trial bt ins_res :=
    match t with
    | BN es ks =>
      after (scan_t (bor k) es n) (fun _ => t) (fun _ '(ub, c) n =>
      match c with
      | Eq => plain (e <- unwrap (nth_error es ub);; Ok (BN (set_at ub (k, v) es) ks, Replaced (snd e))) n
      | _ =>
        after (match nth_error (map (n_insert_t k v) ks) ub with
               | Some f => after (f n) (fun c' => set_at ub c' ks) (fun c' r n => Returned (set_at ub c' ks) r n)
               | None => Returned ks (Split None k v) n
               end) (BN es) (fun ks1 r n =>
        plain
          match r with
          | Split child k1 v1 =>
            es1 <- vec_insert ub (k1, v1) es;;
            ks2 <- match child with Some rc => vec_insert ub rc ks1 | None => Ok ks1 end;;
            if length es1 <=? MAX_OCC N then Ok (BN es1 ks2, Absorbed) else n_split N (BN es1 ks2)
          | _ => Ok (BN es ks1, r)
          end n)
      end)
    end.

  (** btree.rs:493-543 [Node::remove]; [rebal] and [pop_last] ask nothing. *)
  Fixpoint n_remove_t (q : Q) (t : bt) (n : nat) : trial bt (option (entry * bool)) :=
    match t with
    | BN es ks =>
      after (scan_t q es n) (fun _ => t) (fun _ '(i, c) n =>
      match c with
      | Lt =>
        match nth_error (map (n_remove_t q) ks) i with
        | None => Returned t None n
        | Some f =>
          after (f n) (fun c' => BN es (set_at i c' ks)) (fun c' ret n =>
          plain (
            let t1 := BN es (set_at i c' ks) in
            match ret with
            | None => Ok (t1, None)
            | Some (kv, true) => '(t2, u) <- rebal N t1 i;; Ok (t2, Some (kv, u))
            | Some (kv, false) => Ok (t1, Some (kv, false))
            end) n)
        end
      | Eq =>
        plain (
          if is_leaf t then
            '(kv, es') <- vec_remove i es;;
            Ok (BN es' ks, Some (kv, length es' <? MIN_OCC N))
          else
            m <- unwrap (nth_error (map (n_pop_last N) ks) i);;
            '(c', ret) <- m;;
            '(kv, under) <- unwrap ret;;
            old <- unwrap (nth_error es i);;
            let t1 := BN (set_at i kv es) (set_at i c' ks) in
            if (under : bool) then '(t2, u) <- rebal N t1 i;; Ok (t2, Some (old, u))
            else Ok (t1, Some (old, false))) n
      | Gt =>
        match last_opt (map (n_remove_t q) ks) with
        | None => Returned t None n
        | Some f =>
          after (f n) (fun c' => BN es (set_at (length ks - 1) c' ks)) (fun c' ret n =>
          plain (
            let t1 := BN es (set_at (length ks - 1) c' ks) in
            match ret with
            | None => Ok (t1, None)
            | Some (kv, true) => '(t2, u) <- rebal N t1 (length es);; Ok (t2, Some (kv, u))
            | Some (kv, false) => Ok (t1, Some (kv, false))
            end) n)
        end
      end)
    end.

  (** ** [BTreeMap] *)

  (** btree.rs:566-591 [contains_key], :631-659 [get], :661-670 [get_mut]. *)
  Definition b_contains_t (m : bmap) (q : Q) (n : nat) : trial unit bool :=
    match bm_root m with None => Returned tt false n | Some t => n_contains_t q t n end.
  Definition b_get_t (m : bmap) (q : Q) (n : nat) : trial unit (option V) :=
    match bm_root m with
    | None => Returned tt None n
    | Some t => after (n_get_t q t n) (fun _ => tt) (fun _ o n => Returned tt (option_map snd o) n)
    end.
  Definition b_get_mut_t (m : bmap) (q : Q) (w : V -> V) (n : nat) : trial bmap (option V) :=
    match bm_root m with
    | None => Returned m None n
    | Some t => after (n_get_mut_t q w t n) (fun t' => BMap (bm_len m) (Some t'))
                  (fun t' r n => Returned (BMap (bm_len m) (Some t')) (option_map snd r) n)
    end.

  (** btree.rs:683-714 [insert]. *)
  Definition b_insert_t (m : bmap) (k : K) (v : V) (n : nat) : trial bmap (option V) :=
    match bm_root m with
    | Some t =>
      after (n_insert_t k v t n) (fun t' => BMap (bm_len m) (Some t')) (fun t' r n =>
      plain
        match r with
        | Replaced old => Ok (BMap (bm_len m) (Some t'), Some old)
        | Split lhs k1 v1 =>
          l <- unwrap lhs;;
          Ok (BMap (bm_len m + 1) (Some (BN [(k1, v1)] [l; t'])), None)
        | Absorbed => Ok (BMap (bm_len m + 1) (Some t'), None)
        end n)
    | None => Returned (BMap 1 (Some (BN [(k, v)] []))) None n
    end.

  (** btree.rs:888-900 [remove] and :819-837 [rm_and_rebal]. *)
  Definition b_remove_t (m : bmap) (q : Q) (n : nat) : trial bmap (option V) :=
    after (b_contains_t m q n) (fun _ => m) (fun _ there n =>
    if negb there then Returned m None n else
    match bm_root m with
    | None => Returned m None n
    | Some t =>
      after (n_remove_t q t n) (fun t' => BMap (bm_len m) (Some t')) (fun t' ret n =>
      plain
        match ret with
        | None => Ok (BMap (bm_len m) (Some t'), None)
        | Some (old, under) =>
          len <- usize_sub (bm_len m) 1;;
          if under && is_nil (elems_of t') then
            _ <- assert_ (length (kids_of t') <=? 1);;
            Ok (BMap len (option_map fst (vec_pop (kids_of t'))), Some (snd old))
          else Ok (BMap len (Some t'), Some (snd old))
        end n)
    end).

  (** btree.rs:977-987 [extend]; :1002-1012 [from_iter]. *)
  Fixpoint b_extend_t (m : bmap) (ps : list entry) (n : nat) : trial bmap unit :=
    match ps with
    | [] => Returned m tt n
    | (k, v) :: ps' => after (b_insert_t m k v n) (fun m' => m') (fun m' _ n => b_extend_t m' ps' n)
    end.
  Definition b_from_iter_t (ps : list entry) (n : nat) : trial unit bmap :=
    after (b_extend_t b_new ps n) (fun _ => tt) (fun m _ n => Returned tt m n).

  (** btree.rs:553-559 [append]: [other] is taken first. The entries that its owning iterator yields are listed here before
      they are inserted ([un] tells which nodes it finds unshared, see [BTreeIterModel]); it asks nothing. *)
  Definition b_append_t (un : bt -> bool) (a b : bmap) (n : nat) : trial (bmap * bmap) unit :=
    match b_into_list un b with
    | Panic => Fault
    | Ok ps => after (b_extend_t a ps n) (fun a' => (a', b_new)) (fun a' _ n => Returned (a', b_new) tt n)
    end.

  (** btree.rs:902-923 [retain]: [self] is taken first and assigned last. For each entry [f] is called, with its state; it
      panics if its last result is [None]; and what it keeps is inserted into a new map. *)
  Fixpoint retain_t {S} (f : S -> K -> V -> S * V * option bool) (acc : bmap) (s : S) (ps : list entry) (n : nat)
    : trial unit (bmap * S) :=
    match ps with
    | [] => Returned tt (acc, s) n
    | (k, v) :: ps' =>
      match f s k v with
      | (_, _, None) => Unwound tt n
      | (s1, _, Some false) => retain_t f acc s1 ps' n
      | (s1, v1, Some true) => after (b_insert_t acc k v1 n) (fun _ => tt) (fun acc' _ n => retain_t f acc' s1 ps' n)
      end
    end.
  Definition b_retain_t {S} (un : bt -> bool) (f : S -> K -> V -> S * V * option bool) (m : bmap) (s : S) (n : nat)
    : trial bmap S :=
    match b_into_list un m with
    | Panic => Fault
    | Ok ps => after (retain_t f b_new s ps n) (fun _ => b_new) (fun _ '(m', s') n => Returned m' s' n)
    end.

  (** btree.rs:925-938 [split_off]: as [retain]; [partition] asks whether [key > k] for each entry and inserts it into one of
      two maps. *)
  Fixpoint part_t (q : Q) (lo hi : bmap) (ps : list entry) (n : nat) : trial unit (bmap * bmap) :=
    match ps with
    | [] => Returned tt (lo, hi) n
    | (k, v) :: ps' =>
      question ask n q (bor k) tt (fun c n =>
      match c with
      | Gt => after (b_insert_t lo k v n) (fun _ => tt) (fun lo' _ n => part_t q lo' hi ps' n)
      | _ => after (b_insert_t hi k v n) (fun _ => tt) (fun hi' _ n => part_t q lo hi' ps' n)
      end)
    end.
  Definition b_split_off_t (un : bt -> bool) (m : bmap) (q : Q) (n : nat) : trial bmap bmap :=
    match b_into_list un m with
    | Panic => Fault
    | Ok ps => after (part_t q b_new b_new ps n) (fun _ => b_new) (fun _ '(lo, hi) n => Returned lo hi n)
    end.

  (** lib.rs:260-271 [Entry::and_modify] and :277-329 [or_insert] and its kin: as in [AvlAskModel]. *)
  Definition b_and_modify_t (m : bmap) (k : K) (f : V -> V * bool) (n : nat) : trial bmap unit :=
    after (b_get_mut_t m (bor k) (fun v => fst (f v)) n) (fun m' => m') (fun m' o n =>
    match o with
    | Some v => if snd (f v) then Returned m' tt n else Unwound m' n
    | None => Returned m' tt n
    end).
  Definition b_or_insert_t (m : bmap) (k : K) (f : option V) (w : V -> V) (n : nat) : trial bmap V :=
    after (b_contains_t m (bor k) n) (fun _ => m) (fun _ there n =>
    after (if (there : bool) then Returned m tt n else
           match f with
           | None => Unwound m n
           | Some v => after (b_insert_t m k v n) (fun m' => m') (fun m' _ n => Returned m' tt n)
           end) (fun m' => m') (fun m1 _ n =>
    after (b_get_mut_t m1 (bor k) w n) (fun m' => m') (fun m2 o n =>
    plain (v <- unwrap o;; Ok (m2, v)) n))).
End BTreeAsk.
