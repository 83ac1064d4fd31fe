(** Model of the map operations of [/repo/src/btree.rs], generic in the minimum
    occupancy [N] (the const parameter of the type). [Arc] is transparent here:
    [Arc::make_mut] and [try_unwrap]-or-clone are the identity. *)
From Coq Require Import List PeanoNat Bool.
From Verif Require Import Base Spec Vec.
Import ListNotations.

(** btree.rs:27-31 [struct Node]. *)
Inductive bt (K V : Type) : Type := BN (elems : list (K * V)) (kids : list (bt K V)).
Arguments BN {K V} elems kids.

(** btree.rs:546-550 [struct BTreeMap]. *)
Record bt_map (K V : Type) := BMap { bm_len : nat; bm_root : option (bt K V) }.
Arguments BMap {K V} bm_len bm_root.
Arguments bm_len {K V} b.
Arguments bm_root {K V} b.

(** btree.rs:46-50 [enum InsertResult]. *)
Inductive ins_res (K V : Type) : Type :=
| Replaced (v : V)
| Split (c : option (bt K V)) (k : K) (v : V)
| Absorbed.
Arguments Replaced {K V} v.
Arguments Split {K V} c k v.
Arguments Absorbed {K V}.

(** btree.rs:15-23 [enum MapErr]. *)
Inductive bt_err := BadLen (n : nat) | Imbalanced | Overpopulated | Underpopulated | Unsorted.

Section BTree.
  Context {K V Q : Type} (bor : K -> Q) (cmp : Q -> Q -> comparison).
  (** The const parameter [N]. *)
  Context (N : nat).
  Notation bt := (bt K V).
  Notation ins_res := (ins_res K V).

  (** btree.rs:54-61. [2 * N + 1] is a compile-time constant: an [N] for which it
      overflows does not compile. *)
  Definition MIN_OCC : nat := N.
  Definition MAX_OCC : nat := 2 * N + 1.

  Definition elems_of (t : bt) : list (K * V) := match t with BN es _ => es end.
  Definition kids_of (t : bt) : list bt := match t with BN _ ks => ks end.
  (** btree.rs:87-89 [len]; :208-214 [is_branch], [is_leaf]; :63-69 [child] is [nth_error]. *)
  Definition n_len (t : bt) : nat := length (elems_of t).
  Definition is_leaf (t : bt) : bool := is_nil (kids_of t).
  Definition is_branch (t : bt) : bool := negb (is_leaf t).

  (** The scan over the keys that starts each operation (btree.rs:96-102, 113-124,
      138-150, 499-533, 577-584): [(i, Lt)] if the loop is left at the first [i] with
      [key < elems[i]], [(i, Eq)] if at an equal key, [(len, Gt)] if it runs to the end. *)
  Fixpoint scan (q : Q) (es : list (K * V)) : nat * comparison :=
    match es with
    | [] => (0, Gt)
    | e :: es' =>
      match cmp q (bor (fst e)) with
      | Gt => let '(i, c) := scan q es' in (S i, c)
      | c => (0, c)
      end
    end.

  (** The recursive calls below are written [nth_error (map f kids) i]: the result
      of [f] for the child that [child(i)] finds, [None] if there is none. *)

  (** btree.rs:91-105 [Node::get_key_value]. *)
  Fixpoint n_get (q : Q) (t : bt) : option (K * V) :=
    match t with
    | BN es ks =>
      let '(i, c) := scan q es in
      match c with
      | Eq => nth_error es i
      | Lt => match nth_error (map (n_get q) ks) i with Some r => r | None => None end
      | Gt => match last_opt (map (n_get q) ks) with Some r => r | None => None end
      end
    end.

  (** btree.rs:107-129 [Node::get_mut]; [w] is what the caller does through the
      returned reference; the old entry is returned. *)
  Fixpoint n_get_mut (q : Q) (w : V -> V) (t : bt) : bt * option (K * V) :=
    match t with
    | BN es ks =>
      let '(i, c) := scan q es in
      match c with
      | Eq =>
        match nth_error es i with
        | Some e => (BN (set_at i (fst e, w (snd e)) es) ks, Some e)
        | None => (t, None)
        end
      | Lt =>
        match nth_error (map (n_get_mut q w) ks) i with
        | Some (c', r) => (BN es (set_at i c' ks), r)
        | None => (t, None)
        end
      | Gt =>
        match last_opt (map (n_get_mut q w) ks) with
        | Some (c', r) => (BN es (set_at (length ks - 1) c' ks), r)
        | None => (t, None)
        end
      end
    end.

  (** btree.rs:181-206 [Node::split]: returns the node that stays (the upper half)
      and the [Split] with the lower half and the separator. *)
  Definition n_split (t : bt) : res (bt * ins_res) :=
    match t with
    | BN es ks =>
      _ <- assert_ (MAX_OCC <? length es);;
      '(lo_es, hi_es) <- vec_split_off (MIN_OCC + 1) es;;
      '(lo_ks, hi_ks) <- (if is_nil ks then Ok (ks, []) else vec_split_off (MIN_OCC + 1) ks);;
      '(mid, lo_es') <- unwrap (vec_pop lo_es);;
      Ok (BN hi_es hi_ks, Split (Some (BN lo_es' lo_ks)) (fst mid) (snd mid))
    end.

  (** btree.rs:131-178 [Node::insert]. *)
  Fixpoint n_insert (k : K) (v : V) (t : bt) : res (bt * ins_res) :=
    match t with
    | BN es ks =>
      let '(ub, c) := scan (bor k) es in
      match c with
      | Eq =>
        e <- unwrap (nth_error es ub);;
        Ok (BN (set_at ub (k, v) es) ks, Replaced (snd e))
      | _ =>
        '(ks1, r) <- match nth_error (map (n_insert k v) ks) ub with
                     | Some m => '(c', r) <- m;; Ok (set_at ub c' ks, r)
                     | None => Ok (ks, Split None k v)
                     end;;
        match r with
        | Split child k1 v1 =>
          es1 <- vec_insert ub (k1, v1) es;;
          ks2 <- match child with Some rc => vec_insert ub rc ks1 | None => Ok ks1 end;;
          if length es1 <=? MAX_OCC then Ok (BN es1 ks2, Absorbed) else n_split (BN es1 ks2)
        | _ => Ok (BN es ks1, r)
        end
      end
    end.

  (** btree.rs:323-363 [Node::rot_lf]. *)
  Definition rot_lf (t : bt) (idx : nat) : res bt :=
    match t with
    | BN es ks =>
      _ <- assert_ (is_branch t);;
      '(BN r_es r_ks) <- unwrap (nth_error ks (idx + 1));;
      _ <- assert_ (MIN_OCC <? length r_es);;
      '(kv2, r_es') <- vec_remove 0 r_es;;
      '(kid, r_ks') <- (if is_nil r_ks then Ok (None, r_ks)
                        else '(x, r_ks') <- vec_remove 0 r_ks;; Ok (Some x, r_ks'));;
      let ks1 := set_at (idx + 1) (BN r_es' r_ks') ks in
      kv1 <- unwrap (nth_error es idx);;
      let es1 := set_at idx kv2 es in
      '(BN l_es l_ks) <- unwrap (nth_error ks1 idx);;
      _ <- assert_ (length l_es <? MIN_OCC);;
      let l := BN (l_es ++ [kv1]) (match kid with Some x => l_ks ++ [x] | None => l_ks end) in
      Ok (BN es1 (set_at idx l ks1))
    end.

  (** btree.rs:365-395 [Node::rot_rt]. *)
  Definition rot_rt (t : bt) (idx : nat) : res bt :=
    match t with
    | BN es ks =>
      _ <- assert_ (is_branch t);;
      '(BN l_es l_ks) <- unwrap (nth_error ks idx);;
      _ <- assert_ (MIN_OCC <? length l_es);;
      '(kv0, l_es') <- unwrap (vec_pop l_es);;
      let '(kid, l_ks') := match vec_pop l_ks with
                           | Some (x, l_ks') => (Some x, l_ks')
                           | None => (None, l_ks)
                           end in
      let ks1 := set_at idx (BN l_es' l_ks') ks in
      kv1 <- unwrap (nth_error es idx);;
      let es1 := set_at idx kv0 es in
      '(BN r_es r_ks) <- unwrap (nth_error ks1 (idx + 1));;
      r_es' <- vec_insert 0 kv1 r_es;;
      r_ks' <- match kid with Some x => vec_insert 0 x r_ks | None => Ok r_ks end;;
      Ok (BN es1 (set_at (idx + 1) (BN r_es' r_ks') ks1))
    end.

  (** btree.rs:398-425 [Node::merge_kids]. *)
  Definition merge_kids (t : bt) (at_ : nat) : res bt :=
    match t with
    | BN es ks =>
      '(mid, es1) <- vec_remove at_ es;;
      '(BN l_es l_ks, ks1) <- vec_remove at_ ks;;
      '(BN r_es r_ks) <- unwrap (nth_error ks1 at_);;
      Ok (BN es1 (set_at at_ (BN ((l_es ++ [mid]) ++ r_es) (l_ks ++ r_ks)) ks1))
    end.

  (** btree.rs:428-449 [Node::rebal]; the flag is [IsUnderPop]. *)
  Definition rebal (t : bt) (at_ : nat) : res (bt * bool) :=
    _ <- assert_ (is_branch t);;
    let threshold := MAX_OCC - MIN_OCC in
    t' <- (if 0 <? at_ then
             s <- unwrap (nth_error (kids_of t) (at_ - 1));;
             if threshold <? n_len s then rot_rt t (at_ - 1) else merge_kids t (at_ - 1)
           else
             s <- unwrap (nth_error (kids_of t) (at_ + 1));;
             if threshold <? n_len s then rot_lf t at_ else merge_kids t at_);;
    Ok (t', n_len t' <? MIN_OCC).

  (** btree.rs:451-470 [Node::pop_first]. *)
  Fixpoint n_pop_first (t : bt) : res (bt * option ((K * V) * bool)) :=
    match t with
    | BN es ks =>
      match nth_error (map n_pop_first ks) 0 with
      | Some m =>
        '(c, ret) <- m;;
        let t1 := BN es (set_at 0 c ks) in
        match ret with
        | Some (kv, true) => '(t2, u) <- rebal t1 0;; Ok (t2, Some (kv, u))
        | _ => Ok (t1, ret)
        end
      | None =>
        '(kv, es') <- vec_remove 0 es;;
        Ok (BN es' ks, Some (kv, length es' <? MIN_OCC))
      end
    end.

  (** btree.rs:472-491 [Node::pop_last]. *)
  Fixpoint n_pop_last (t : bt) : res (bt * option ((K * V) * bool)) :=
    match t with
    | BN es ks =>
      match last_opt (map n_pop_last ks) with
      | Some m =>
        '(c, ret) <- m;;
        let t1 := BN es (set_at (length ks - 1) c ks) in
        match ret with
        | Some (kv, true) => '(t2, u) <- rebal t1 (length es);; Ok (t2, Some (kv, u))
        | _ => Ok (t1, ret)
        end
      | None =>
        '(kv, es') <- unwrap (vec_pop es);;
        Ok (BN es' ks, Some (kv, length es' <? MIN_OCC))
      end
    end.

  (** btree.rs:493-543 [Node::remove]. *)
  Fixpoint n_remove (q : Q) (t : bt) : res (bt * option ((K * V) * bool)) :=
    match t with
    | BN es ks =>
      let '(i, c) := scan q es in
      match c with
      | Lt =>
        match nth_error (map (n_remove q) ks) i with
        | None => Ok (t, None)
        | Some m =>
          '(c', ret) <- m;;
          let t1 := BN es (set_at i c' ks) in
          match ret with
          | None => Ok (t1, None)
          | Some (kv, true) => '(t2, u) <- rebal t1 i;; Ok (t2, Some (kv, u))
          | Some (kv, false) => Ok (t1, Some (kv, false))
          end
        end
      | Eq =>
        if is_leaf t then
          '(kv, es') <- vec_remove i es;;
          Ok (BN es' ks, Some (kv, length es' <? MIN_OCC))
        else
          m <- unwrap (nth_error (map n_pop_last ks) i);;
          '(c', ret) <- m;;
          '(kv, under) <- unwrap ret;;
          old <- unwrap (nth_error es i);;
          let t1 := BN (set_at i kv es) (set_at i c' ks) in
          if (under : bool) then '(t2, u) <- rebal t1 i;; Ok (t2, Some (old, u))
          else Ok (t1, Some (old, false))
      | Gt =>
        match last_opt (map (n_remove q) ks) with
        | None => Ok (t, None)
        | Some m =>
          '(c', ret) <- m;;
          let t1 := BN es (set_at (length ks - 1) c' ks) in
          match ret with
          | None => Ok (t1, None)
          | Some (kv, true) => '(t2, u) <- rebal t1 (length es);; Ok (t2, Some (kv, u))
          | Some (kv, false) => Ok (t1, Some (kv, false))
          end
        end
      end
    end.

  (** ** [BTreeMap] *)
  Notation bmap := (bt_map K V).

  (** btree.rs:815-817 [new], :971-975 [default], :561-564 [clear], :811-813 [len],
      :738-740 [is_empty]. *)
  Definition b_new : bmap := BMap 0 None.
  Definition b_clear (m : bmap) : bmap := BMap 0 None.
  Definition b_len (m : bmap) : nat := bm_len m.
  Definition b_is_empty (m : bmap) : bool := b_len m =? 0.

  (** btree.rs:566-591 [contains_key]: the loop, one node per round. *)
  Fixpoint n_contains (q : Q) (t : bt) : bool :=
    match t with
    | BN es ks =>
      let '(i, c) := scan q es in
      match c with
      | Eq => true
      | _ => match nth_error (map (n_contains q) ks) i with Some r => r | None => false end
      end
    end.
  Definition b_contains_key (m : bmap) (q : Q) : bool :=
    match bm_root m with None => false | Some t => n_contains q t end.

  (** btree.rs:631-659 [get], [get_key_value]. *)
  Definition b_get_key_value (m : bmap) (q : Q) : option (K * V) :=
    match bm_root m with None => None | Some t => n_get q t end.
  Definition b_get (m : bmap) (q : Q) : option V := option_map snd (b_get_key_value m q).

  (** btree.rs:661-670 [get_mut]. *)
  Definition b_get_mut (m : bmap) (q : Q) (w : V -> V) : bmap * option V :=
    match bm_root m with
    | None => (m, None)
    | Some t => let '(t', r) := n_get_mut q w t in (BMap (bm_len m) (Some t'), option_map snd r)
    end.

  (** btree.rs:612-618 [first_key_value]: indexes [elems[0]] of the leftmost leaf. *)
  Fixpoint n_first (t : bt) : res (K * V) :=
    match t with
    | BN es ks => match nth_error (map n_first ks) 0 with Some r => r | None => unwrap (nth_error es 0) end
    end.
  Definition b_first_key_value (m : bmap) : res (option (K * V)) :=
    match bm_root m with None => Ok None | Some t => e <- n_first t;; Ok (Some e) end.
  (** btree.rs:803-809 [last_key_value]. *)
  Fixpoint n_last (t : bt) : option (K * V) :=
    match t with
    | BN es ks => match last_opt (map n_last ks) with Some r => r | None => last_opt es end
    end.
  Definition b_last_key_value (m : bmap) : option (K * V) :=
    match bm_root m with None => None | Some t => n_last t end.

  (** btree.rs:683-714 [insert]. *)
  Definition b_insert (m : bmap) (k : K) (v : V) : res (bmap * option V) :=
    match bm_root m with
    | Some t =>
      '(t', r) <- n_insert k v t;;
      match r with
      | Replaced old => Ok (BMap (bm_len m) (Some t'), Some old)
      | Split lhs k1 v1 =>
        l <- unwrap lhs;;
        Ok (BMap (bm_len m + 1) (Some (BN [(k1, v1)] [l; t'])), None)
      | Absorbed => Ok (BMap (bm_len m + 1) (Some t'), None)
      end
    | None => Ok (BMap 1 (Some (BN [(k, v)] [])), None)
    end.

  (** btree.rs:819-837 [rm_and_rebal]. *)
  Definition rm_and_rebal (m : bmap) (remover : bt -> res (bt * option ((K * V) * bool)))
    : res (bmap * option (K * V)) :=
    match bm_root m with
    | None => Ok (m, None)
    | Some t =>
      '(t', ret) <- remover t;;
      match ret with
      | None => Ok (BMap (bm_len m) (Some t'), None)
      | Some (old, under) =>
        len <- usize_sub (bm_len m) 1;;
        if under && is_nil (elems_of t') then
          _ <- assert_ (length (kids_of t') <=? 1);;
          Ok (BMap len (option_map fst (vec_pop (kids_of t'))), Some old)
        else Ok (BMap len (Some t'), Some old)
      end
    end.

  (** btree.rs:839-853 [pop_first], [pop_last]; :888-900 [remove]. *)
  Definition b_pop_first (m : bmap) := rm_and_rebal m n_pop_first.
  Definition b_pop_last (m : bmap) := rm_and_rebal m n_pop_last.
  Definition b_remove (m : bmap) (q : Q) : res (bmap * option V) :=
    if negb (b_contains_key m q) then Ok (m, None)
    else '(m', r) <- rm_and_rebal m (n_remove q);; Ok (m', option_map snd r).

  (** btree.rs:977-987 [Extend::extend]; :1002-1012 [from_iter]; :991-1000 [From<[_; M]>]. *)
  Fixpoint b_extend (m : bmap) (ps : list (K * V)) : res bmap :=
    match ps with
    | [] => Ok m
    | (k, v) :: ps' => '(m', _) <- b_insert m k v;; b_extend m' ps'
    end.
  Definition b_from_iter (ps : list (K * V)) : res bmap := b_extend b_new ps.

  (** btree.rs:2162-2245 [chk]. [>=] on keys. *)
  Definition key_ge (a b : K) : bool :=
    match cmp (bor a) (bor b) with Lt => false | _ => true end.
  (** btree.rs:2162-2166 [struct Check]. *)
  Record check := Check { ck_ht : nat; ck_len : nat; ck_greatest : option K }.

  (** btree.rs:2168-2183 [chk_node_ptr] of an absent child. *)
  Definition chk_none (pred : option K) : res (check + bt_err) := Ok (inl (Check 0 0 pred)).

  Section Chk.
    Context (chk_kid : nat -> option K -> option (res (check + bt_err))).
    Definition chk_child (i : nat) (pred : option K) : res (check + bt_err) :=
      match chk_kid i pred with Some r => r | None => chk_none pred end.

    (** btree.rs:2217-2231: the loop over the elements 1 .. len-1. *)
    Fixpoint chk_loop (i : nat) (es : list (K * V)) (ht len : nat) (pred : option K)
      : res ((nat * option K) + bt_err) :=
      match es with
      | [] => Ok (inl (len, pred))
      | (k, _) :: es' =>
        c <- chk_child i pred;;
        match c with
        | inr e => Ok (inr e)
        | inl curr =>
          if negb (ht =? ck_ht curr) then Ok (inr Imbalanced) else
          g <- unwrap (ck_greatest curr);;
          if key_ge g k then Ok (inr Unsorted)
          else chk_loop (S i) es' ht (len + ck_len curr) (Some k)
        end
      end.
  End Chk.

  (** btree.rs:2185-2244 [Node::chk]. *)
  Fixpoint n_chk (min_pop : nat) (t : bt) (prev : option K) {struct t} : res (check + bt_err) :=
    match t with
    | BN es ks =>
      let kid i pred := nth_error (map (fun c => n_chk N c pred) ks) i in
      let last pred := last_opt (map (fun c => n_chk N c pred) ks) in
      _ <- assert_ ((min_pop =? 1) || (min_pop =? N));;
      if length es <? min_pop then Ok (inr Underpopulated) else
      if MAX_OCC <? length es then Ok (inr Overpopulated) else
      first <- chk_child kid 0 prev;;
      match first with
      | inr e => Ok (inr e)
      | inl first =>
        '(k0, _) <- unwrap (nth_error es 0);;
        if match ck_greatest first with Some g => key_ge g k0 | None => false end
        then Ok (inr Unsorted) else
        r <- chk_loop kid 1 (skipn 1 es) (ck_ht first) (ck_len first) (Some k0);;
        match r with
        | inr e => Ok (inr e)
        | inl (len, pred) =>
          c <- match last pred with Some r => r | None => chk_none pred end;;
          match c with
          | inr e => Ok (inr e)
          | inl curr =>
            if negb (ck_ht first =? ck_ht curr) then Ok (inr Imbalanced) else
            Ok (inl (Check (ck_ht first + 1) (length es + len + ck_len curr) (ck_greatest curr)))
          end
        end
      end
    end.

  (** btree.rs:2247-2256 [BTreeMap::chk]; :1062-1070 [check]. *)
  Definition b_chk (m : bmap) : res (unit + bt_err) :=
    r <- match bm_root m with Some t => n_chk 1 t None | None => chk_none None end;;
    match r with
    | inr e => Ok (inr e)
    | inl c => if ck_len c =? bm_len m then Ok (inl tt) else Ok (inr (BadLen (ck_len c)))
    end.
End BTree.
