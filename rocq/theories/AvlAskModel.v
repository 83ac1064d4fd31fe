(** [/repo/src/avl.rs] with comparisons that may panic or change their answers (see Ask.v): the functions of [AvlModel] that
    compare keys. Up to the questions they are those functions; what a panic leaves behind is said here. *)
From Coq Require Import List ZArith Bool.
From Verif Require Import Base Spec AvlModel Ask.
Import ListNotations.
Open Scope Z_scope.

Section AvlAsk.
  Context {K V Q : Type} (bor : K -> Q) (ask : nat -> Q -> Q -> option comparison).
  Notation tree := (tree K V).
  Notation amap := (avl_map K V).
  Notation entry := (K * V)%type.

  (** avl.rs:527-569 [ins]. The node is changed in place: if the call for a child unwinds, the child is what that call
      left and the rest of the node is as before ([left_ht] is updated after the call, :548, :559). *)
  Fixpoint ins_t (t : tree) (k : K) (v : V) (n : nat) : trial tree (option V * bool) :=
    match t with
    | Leaf => plain (x <- opt_new k v Leaf Leaf;; Ok (x, (None, true))) n
    | Node nk nv lh rh l r =>
      question ask n (bor k) (bor nk) t (fun c n =>
      match c with
      | Eq => Returned (Node k v lh rh l r) (Some nv, false) n
      | Lt =>
        after (ins_t l k v n) (fun l' => Node nk nv lh rh l' r) (fun l' '(old, taller) n =>
        plain (
          lh' <- i8_add lh (b2z taller);;
          let n := Node nk nv lh' rh l' r in
          if (taller : bool) then
            b <- bal lh' rh;;
            if b <? -1 then
              '(n', _) <- rebal_lf_to_rt n;;
              Ok (n', (old, false))
            else Ok (n, (old, b <? 0))
          else Ok (n, (old, false))) n)
      | Gt =>
        after (ins_t r k v n) (fun r' => Node nk nv lh rh l r') (fun r' '(old, taller) n =>
        plain (
          rh' <- i8_add rh (b2z taller);;
          let n := Node nk nv lh rh' l r' in
          if (taller : bool) then
            b <- bal lh rh';;
            if 1 <? b then
              '(n', _) <- rebal_rt_to_lf n;;
              Ok (n', (old, false))
            else Ok (n, (old, 0 <? b))
          else Ok (n, (old, false))) n)
      end)
    end.

  (** avl.rs:627-695 [rm]; in place as [ins]. [rm_leftmost] asks nothing. *)
  Fixpoint rm_t (t : tree) (q : Q) (n : nat) : trial tree (option entry * bool) :=
    match t with
    | Leaf => Returned Leaf (None, false) n
    | Node nk nv lh rh l r =>
      question ask n q (bor nk) t (fun c n =>
      match c with
      | Lt =>
        after (rm_t l q n) (fun l' => Node nk nv lh rh l' r) (fun l' '(kv, shorter) n =>
        plain ('(t', s) <- after_rm_left nk nv lh rh l' r shorter;; Ok (t', (kv, s))) n)
      | Gt =>
        after (rm_t r q n) (fun r' => Node nk nv lh rh l r') (fun r' '(kv, shorter) n =>
        plain ('(t', s) <- after_rm_right nk nv lh rh l r' shorter;; Ok (t', (kv, s))) n)
      | Eq =>
        plain
          match l, r with
          | Leaf, Leaf => Ok (Leaf, (Some (nk, nv), true))
          | Leaf, Node _ _ _ _ _ _ => Ok (r, (Some (nk, nv), true))
          | Node _ _ _ _ _ _, Leaf => Ok (l, (Some (nk, nv), true))
          | _, _ =>
            '(r', succ, shorter) <- rm_leftmost r;;
            '(sk, sv) <- unwrap succ;;
            '(t', s) <- after_rm_right sk sv lh rh l r' shorter;;
            Ok (t', (Some (nk, nv), s))
          end n
      end)
    end.

  (** avl.rs:946-979 [split]. It owns its argument: a panic drops what it has. *)
  Fixpoint split_t (t : tree) (q : Q) (n : nat) : trial unit (tree * option entry * tree) :=
    match t with
    | Leaf => Returned tt (Leaf, None, Leaf) n
    | Node nk nv _ _ l r =>
      question ask n q (bor nk) tt (fun c n =>
      match c with
      | Eq => Returned tt (l, Some (nk, nv), r) n
      | Lt =>
        after (split_t l q n) (fun _ => tt) (fun _ '(l1, kv, r1) n =>
        plain (r1' <- join r1 nk nv r;; Ok (tt, (l1, kv, r1'))) n)
      | Gt =>
        after (split_t r q n) (fun _ => tt) (fun _ '(l1, kv, r1) n =>
        plain (l1' <- join l nk nv l1;; Ok (tt, (l1', kv, r1))) n)
      end)
    end.

  (** avl.rs:835-885 [Merger::merge]. It owns both arguments. *)
  Fixpoint merge_t (keepl keepr : bool) (deconflict : entry -> entry -> option entry) (t1 t2 : tree) (n : nat)
    : trial unit tree :=
    match t1 with
    | Leaf => Returned tt (if keepr then t2 else Leaf) n
    | Node nk nv _ _ l r =>
      match t2 with
      | Leaf => Returned tt (if keepl then t1 else Leaf) n
      | Node _ _ _ _ _ _ =>
        after (split_t t2 (bor nk) n) (fun _ => tt) (fun _ '(t2_lt, t2_kv, t2_gt) n =>
        after (merge_t keepl keepr deconflict l t2_lt n) (fun _ => tt) (fun _ l' n =>
        after (merge_t keepl keepr deconflict r t2_gt n) (fun _ => tt) (fun _ r' n =>
        let kv := match t2_kv with
                  | None => if keepl then Some (nk, nv) else None
                  | Some kv2 => deconflict (nk, nv) kv2
                  end in
        plain (t <- join2 l' kv r';; Ok (tt, t)) n)))
      end
    end.
  (** avl.rs:887-942 [intersect], [diff], [sym_diff], [union]. *)
  Definition intersect_t := merge_t false false (fun lhs _ => Some lhs).
  Definition diff_t := merge_t true false (fun _ _ => None).
  Definition sym_diff_t := merge_t true true (fun _ _ => None).
  Definition union_t := merge_t true true (fun _ rhs => Some rhs).

  (** ** [AvlMap] *)

  (** avl.rs:1087-1103 [get_key_value], :1070-1076 [get], :1019-1025 [contains_key]. *)
  Fixpoint t_get_t (t : tree) (q : Q) (n : nat) : trial unit (option entry) :=
    match t with
    | Leaf => Returned tt None n
    | Node nk nv _ _ l r =>
      question ask n q (bor nk) tt (fun c n =>
      match c with
      | Lt => t_get_t l q n
      | Eq => Returned tt (Some (nk, nv)) n
      | Gt => t_get_t r q n
      end)
    end.
  Definition a_get_t (m : amap) (q : Q) (n : nat) : trial unit (option V) :=
    after (t_get_t (am_root m) q n) (fun _ => tt) (fun _ o n => Returned tt (option_map snd o) n).
  Definition a_contains_t (m : amap) (q : Q) (n : nat) : trial unit bool :=
    after (a_get_t m q n) (fun _ => tt) (fun _ o n => Returned tt (match o with Some _ => true | None => false end) n).

  (** avl.rs:1116-1133 [get_mut]; the caller then writes [w] of the value found. *)
  Fixpoint t_get_mut_t (t : tree) (q : Q) (w : V -> V) (n : nat) : trial tree (option V) :=
    match t with
    | Leaf => Returned Leaf None n
    | Node nk nv lh rh l r =>
      question ask n q (bor nk) t (fun c n =>
      match c with
      | Lt => after (t_get_mut_t l q w n) (fun l' => Node nk nv lh rh l' r) (fun l' o n => Returned (Node nk nv lh rh l' r) o n)
      | Eq => Returned (Node nk (w nv) lh rh l r) (Some nv) n
      | Gt => after (t_get_mut_t r q w n) (fun r' => Node nk nv lh rh l r') (fun r' o n => Returned (Node nk nv lh rh l r') o n)
      end)
    end.
  Definition a_get_mut_t (m : amap) (q : Q) (w : V -> V) (n : nat) : trial amap (option V) :=
    after (t_get_mut_t (am_root m) q w n) (AvlMap (am_len m)) (fun t o n => Returned (AvlMap (am_len m) t) o n).

  (** avl.rs:1145-1153 [insert]: [len] is updated after [ins]. *)
  Definition a_insert_t (m : amap) (k : K) (v : V) (n : nat) : trial amap (option V) :=
    after (ins_t (am_root m) k v n) (AvlMap (am_len m)) (fun t '(ret, _) n =>
    Returned (AvlMap (am_len m + match ret with None => 1 | Some _ => 0 end)%nat t) ret n).

  (** avl.rs:1732-1742 [remove_entry], :1711-1718 [remove]. *)
  Definition a_remove_entry_t (m : amap) (q : Q) (n : nat) : trial amap (option entry) :=
    after (rm_t (am_root m) q n) (AvlMap (am_len m)) (fun t '(kv, _) n =>
    match kv with
    | None => Returned (AvlMap (am_len m) t) None n
    | Some e => plain (x <- usize_sub (am_len m) 1;; Ok (AvlMap x t, Some e)) n
    end).
  Definition a_remove_t (m : amap) (q : Q) (n : nat) : trial amap (option V) :=
    after (a_remove_entry_t m q n) (fun m' => m') (fun m' o n => Returned m' (option_map snd o) n).

  (** avl.rs:998-1006 [append]: both roots are taken before [union] runs, the counts are set after it. *)
  Definition a_append_t (a b : amap) (n : nat) : trial (amap * amap) unit :=
    after (union_t (am_root a) (am_root b) n) (fun _ => (AvlMap (am_len a) Leaf, AvlMap (am_len b) Leaf)) (fun _ t n =>
    Returned (AvlMap (t_len t) t, AvlMap 0 Leaf) tt n).

  (** avl.rs:1376-1384 [new_diff], :1399-1407 [new_intersect], :1459-1467 [new_sym_diff], :1483-1491 [new_union]: they own
      both maps. *)
  Definition a_of_root_t (t : trial unit tree) : trial unit amap :=
    after t (fun _ => tt) (fun _ t n => Returned tt (AvlMap (t_len t) t) n).
  Definition a_diff_t (a b : amap) n := a_of_root_t (diff_t (am_root a) (am_root b) n).
  Definition a_intersect_t (a b : amap) n := a_of_root_t (intersect_t (am_root a) (am_root b) n).
  Definition a_sym_diff_t (a b : amap) n := a_of_root_t (sym_diff_t (am_root a) (am_root b) n).
  Definition a_union_t (a b : amap) n := a_of_root_t (union_t (am_root a) (am_root b) n).

  (** avl.rs:1784-1806 [split_off]: the root is taken before [split] runs; [len] and [root] are set before the [ins] that
      puts the entry found into the upper half. *)
  Definition a_split_off_t (m : amap) (q : Q) (n : nat) : trial amap amap :=
    after (split_t (am_root m) q n) (fun _ => AvlMap (am_len m) Leaf) (fun _ '(lhs, kv, rhs) n =>
    let len_lhs := t_len lhs in
    match usize_sub (am_len m) len_lhs with
    | Panic => Fault
    | Ok len_rhs =>
      let self := AvlMap len_lhs lhs in
      match kv with
      | Some (k, v) => after (ins_t rhs k v n) (fun _ => self) (fun rhs' _ n => Returned self (AvlMap len_rhs rhs') n)
      | None => Returned self (AvlMap len_rhs rhs) n
      end
    end).

  (** avl.rs:2286-2292 [extend]: one [insert] after the other. *)
  Fixpoint a_extend_t (m : amap) (ps : list entry) (n : nat) : trial amap unit :=
    match ps with
    | [] => Returned m tt n
    | (k, v) :: ps' => after (a_insert_t m k v n) (fun m' => m') (fun m' _ n => a_extend_t m' ps' n)
    end.
  (** avl.rs:2304-2309 [from_iter]: it owns the map. *)
  Definition a_from_iter_t (ps : list entry) (n : nat) : trial unit amap :=
    after (a_extend_t avl_new ps n) (fun _ => tt) (fun m _ n => Returned tt m n).

  (** lib.rs:260-271 [Entry::and_modify]. The closure changes the value to [fst (f v)] and then returns, or panics if
      [snd (f v)] is false. *)
  Definition a_and_modify_t (m : amap) (k : K) (f : V -> V * bool) (n : nat) : trial amap unit :=
    after (a_get_mut_t m (bor k) (fun v => fst (f v)) n) (fun m' => m') (fun m' o n =>
    match o with
    | Some v => if snd (f v) then Returned m' tt n else Unwound m' n
    | None => Returned m' tt n
    end).
  (** lib.rs:277-287 [Entry::or_aux], :316-329 [or_insert_with_key]; [f] is what the closure returns, [None] if it panics.
      The caller then writes [w] of the value through the reference. *)
  Definition a_or_insert_t (m : amap) (k : K) (f : option V) (w : V -> V) (n : nat) : trial amap V :=
    after (a_contains_t m (bor k) n) (fun _ => m) (fun _ there n =>
    after (if (there : bool) then Returned m tt n else
           match f with
           | None => Unwound m n
           | Some v => after (a_insert_t m k v n) (fun m' => m') (fun m' _ n => Returned m' tt n)
           end) (fun m' => m') (fun m1 _ n =>
    after (a_get_mut_t m1 (bor k) w n) (fun m' => m') (fun m2 o n =>
    plain (v <- unwrap o;; Ok (m2, v)) n))).
End AvlAsk.
