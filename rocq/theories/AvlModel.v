(** Value model of [/repo/src/avl.rs]: [Node], the tree functions and [AvlMap].
    [Arc] is transparent here ([Arc::make_mut], [Arc::try_unwrap], [clone] keep the
    value); sharing is modelled separately. [&mut OptNode] arguments become
    results. [i8] heights are integers with checked operations. [usize] counters
    are [nat] (no upper bound), subtraction is checked. *)
From Coq Require Import List ZArith Bool.
From Verif Require Import Base Spec.
Import ListNotations.
Open Scope Z_scope.

(** avl.rs:63-71 [struct Node] and :14 [OptNode]; [Leaf] is [None], [lh]/[rh] are
    the stored [left_ht]/[right_ht]. *)
Inductive tree (K V : Type) : Type :=
| Leaf
| Node (k : K) (v : V) (lh rh : Z) (l r : tree K V).
Arguments Leaf {K V}.
Arguments Node {K V} k v lh rh l r.

(** avl.rs:20-26 [enum MapErr]. *)
Inductive map_err := BadHeight | BadLen (n : nat) | Imbalanced | Unsorted.

(** avl.rs:230-234 [struct AvlMap] (derive(Clone): a copy of the value). *)
Record avl_map (K V : Type) := AvlMap { am_len : nat; am_root : tree K V }.
Arguments AvlMap {K V} am_len am_root.
Arguments am_len {K V} a.
Arguments am_root {K V} a.

Section Avl.
  Context {K V Q : Type} (bor : K -> Q) (cmp : Q -> Q -> comparison).

  (** The in-order sequence of entries. Not in the Rust source: used to state
      properties (it is what [iter] yields, see [AvlIterProofs]). *)
  Fixpoint elems (t : tree K V) : list (K * V) :=
    match t with
    | Leaf => []
    | Node k v _ _ l r => elems l ++ (k, v) :: elems r
    end.

  (** avl.rs:105-107 [Node::height], :317-319 [height]. *)
  Definition height (t : tree K V) : res Z :=
    match t with
    | Leaf => Ok 0
    | Node _ _ lh rh _ _ => i8_add (Z.max lh rh) 1
    end.

  (** avl.rs:321-325 [len]. *)
  Fixpoint t_len (t : tree K V) : nat :=
    match t with
    | Leaf => 0
    | Node _ _ _ _ l r => t_len l + 1 + t_len r
    end.

  (** avl.rs:74-92 [Node::new], [Node::opt_new]. *)
  Definition opt_new (k : K) (v : V) (l r : tree K V) : res (tree K V) :=
    lh <- height l;;
    rh <- height r;;
    Ok (Node k v lh rh l r).

  (** avl.rs:95-97 [Node::bal] on the stored heights. *)
  Definition bal (lh rh : Z) : res Z := i8_sub rh lh.

  (** avl.rs:100-103 [Node::is_bal]: [((bal + 1) as u8) <= 2]. *)
  Definition is_bal (lh rh : Z) : res bool :=
    b <- bal lh rh;;
    b1 <- i8_add b 1;;
    Ok (b1 mod 256 <=? 2).

  (** avl.rs:349-377 [rot_lf]: a(x, b(y, z)) => b(a(x, y), z). *)
  Definition rot_lf (t : tree K V) : res (tree K V * bool) :=
    match t with
    | Node ak av alh _ x (Node bk bv blh brh y z) =>
      b_bal <- bal blh brh;;
      let a := Node ak av alh blh x y in
      ah <- height a;;
      Ok (Node bk bv ah brh a z, negb (b_bal =? 0))
    | _ => Panic
    end.

  (** avl.rs:379-421 [rot_rt_lf]: a(x, b(c(y, z), w)) => c(a(x, y), b(z, w)). *)
  Definition rot_rt_lf (t : tree K V) : res (tree K V * bool) :=
    match t with
    | Node ak av alh _ x (Node bk bv _ brh (Node ck cv clh crh y z) w) =>
      let a := Node ak av alh clh x y in
      let b := Node bk bv crh brh z w in
      ah <- height a;;
      bh <- height b;;
      Ok (Node ck cv ah bh a b, true)
    | _ => Panic
    end.

  (** avl.rs:423-454 [rot_rt]: a(b(x, y), z) => b(x, a(y, z)). *)
  Definition rot_rt (t : tree K V) : res (tree K V * bool) :=
    match t with
    | Node ak av _ arh (Node bk bv blh brh x y) z =>
      b_bal <- bal blh brh;;
      let a := Node ak av brh arh y z in
      ah <- height a;;
      Ok (Node bk bv blh ah x a, negb (b_bal =? 0))
    | _ => Panic
    end.

  (** avl.rs:456-493 [rot_lf_rt]: a(b(x, c(y, z)), w) => c(b(x, y), a(z, w)). *)
  Definition rot_lf_rt (t : tree K V) : res (tree K V * bool) :=
    match t with
    | Node ak av _ arh (Node bk bv blh _ x (Node ck cv clh crh y z)) w =>
      let b := Node bk bv blh clh x y in
      let a := Node ak av crh arh z w in
      bh <- height b;;
      ah <- height a;;
      Ok (Node ck cv bh ah b a, true)
    | _ => Panic
    end.

  (** avl.rs:496-508 [rebal_lf_to_rt]. *)
  Definition rebal_lf_to_rt (t : tree K V) : res (tree K V * bool) :=
    match t with
    | Node _ _ _ _ (Node _ _ llh lrh _ _) _ =>
      b <- bal llh lrh;;
      if b <=? 0 then rot_rt t else rot_lf_rt t
    | _ => Panic
    end.

  (** avl.rs:511-523 [rebal_rt_to_lf]. *)
  Definition rebal_rt_to_lf (t : tree K V) : res (tree K V * bool) :=
    match t with
    | Node _ _ _ _ _ (Node _ _ rlh rrh _ _) =>
      b <- bal rlh rrh;;
      if 0 <=? b then rot_lf t else rot_rt_lf t
    | _ => Panic
    end.

  (** [bool as i8] (avl.rs:548, 559, 586, ...). *)
  Definition b2z (b : bool) : Z := if b then 1 else 0.

  (** avl.rs:527-569 [ins]: new tree, replaced value, is-taller. *)
  Fixpoint ins (t : tree K V) (k : K) (v : V) : res (tree K V * option V * bool) :=
    match t with
    | Leaf =>
      n <- opt_new k v Leaf Leaf;;
      Ok (n, None, true)
    | Node nk nv lh rh l r =>
      match cmp (bor k) (bor nk) with
      | Eq => Ok (Node k v lh rh l r, Some nv, false)
      | Lt =>
        '(l', old, taller) <- ins l k v;;
        lh' <- i8_add lh (b2z taller);;
        let n := Node nk nv lh' rh l' r in
        if taller then
          b <- bal lh' rh;;
          if b <? -1 then
            '(n', _) <- rebal_lf_to_rt n;;
            Ok (n', old, false)
          else Ok (n, old, b <? 0)
        else Ok (n, old, false)
      | Gt =>
        '(r', old, taller) <- ins r k v;;
        rh' <- i8_add rh (b2z taller);;
        let n := Node nk nv lh rh' l r' in
        if taller then
          b <- bal lh rh';;
          if 1 <? b then
            '(n', _) <- rebal_rt_to_lf n;;
            Ok (n', old, false)
          else Ok (n, old, 0 <? b)
        else Ok (n, old, false)
      end
    end.

  (** avl.rs:584-590, 640-646: the part of a removal after the left subtree shrank
      (or not). *)
  Definition after_rm_left (nk : K) (nv : V) (lh rh : Z) (l' r : tree K V) (shorter : bool)
    : res (tree K V * bool) :=
    lh' <- i8_sub lh (b2z shorter);;
    let n := Node nk nv lh' rh l' r in
    if shorter then
      b <- bal lh' rh;;
      if 1 <? b then rebal_rt_to_lf n else Ok (n, b =? 0)
    else Ok (n, false).

  (** avl.rs:611-617, 650-656, 684-690: the mirror image. *)
  Definition after_rm_right (nk : K) (nv : V) (lh rh : Z) (l r' : tree K V) (shorter : bool)
    : res (tree K V * bool) :=
    rh' <- i8_sub rh (b2z shorter);;
    let n := Node nk nv lh rh' l r' in
    if shorter then
      b <- bal lh rh';;
      if b <? -1 then rebal_lf_to_rt n else Ok (n, b =? 0)
    else Ok (n, false).

  (** avl.rs:573-596 [rm_leftmost]: new tree, removed entry, is-shorter. *)
  Fixpoint rm_leftmost (t : tree K V) : res (tree K V * option (K * V) * bool) :=
    match t with
    | Leaf => Ok (Leaf, None, false)
    | Node nk nv lh rh l r =>
      match l with
      | Leaf => Ok (r, Some (nk, nv), true)
      | Node _ _ _ _ _ _ =>
        '(l', kv, shorter) <- rm_leftmost l;;
        '(t', s) <- after_rm_left nk nv lh rh l' r shorter;;
        Ok (t', kv, s)
      end
    end.

  (** avl.rs:600-623 [rm_rightmost]. *)
  Fixpoint rm_rightmost (t : tree K V) : res (tree K V * option (K * V) * bool) :=
    match t with
    | Leaf => Ok (Leaf, None, false)
    | Node nk nv lh rh l r =>
      match r with
      | Leaf => Ok (l, Some (nk, nv), true)
      | Node _ _ _ _ _ _ =>
        '(r', kv, shorter) <- rm_rightmost r;;
        '(t', s) <- after_rm_right nk nv lh rh l r' shorter;;
        Ok (t', kv, s)
      end
    end.

  (** avl.rs:627-695 [rm]. *)
  Fixpoint rm (t : tree K V) (q : Q) : res (tree K V * option (K * V) * bool) :=
    match t with
    | Leaf => Ok (Leaf, None, false)
    | Node nk nv lh rh l r =>
      match cmp q (bor nk) with
      | Lt =>
        '(l', kv, shorter) <- rm l q;;
        '(t', s) <- after_rm_left nk nv lh rh l' r shorter;;
        Ok (t', kv, s)
      | Gt =>
        '(r', kv, shorter) <- rm r q;;
        '(t', s) <- after_rm_right nk nv lh rh l r' shorter;;
        Ok (t', kv, s)
      | Eq =>
        match l, r with
        | Leaf, Leaf => Ok (Leaf, Some (nk, nv), true)
        | Leaf, Node _ _ _ _ _ _ => Ok (r, Some (nk, nv), true)
        | Node _ _ _ _ _ _, Leaf => Ok (l, Some (nk, nv), true)
        | _, _ =>
          '(r', succ, shorter) <- rm_leftmost r;;
          '(sk, sv) <- unwrap succ;;
          '(t', s) <- after_rm_right sk sv lh rh l r' shorter;;
          Ok (t', Some (nk, nv), s)
        end
      end
    end.

  (** avl.rs:719-757 [join_rt]. The recursion is on the right spine of [left].
      [t2n.right_ht -= 1] (:742) is kept although the following [rot_lf] overwrites
      the field. *)
  Fixpoint join_rt (left : tree K V) (k : K) (v : V) (right : tree K V) : res (tree K V) :=
    match left with
    | Leaf => Panic (* [left : Arc<Node>] cannot be [None] *)
    | Node nk nv lh rh l c =>
      lefth <- height left;;
      hr <- height right;;
      hr1 <- i8_add hr 1;;
      _ <- assert_ (hr1 <? lefth);;
      hc <- height c;;
      if hc <=? hr1 then
        t1 <- opt_new k v c right;;
        h1 <- height t1;;
        ib <- is_bal lh h1;;
        if ib then Ok (Node nk nv lh h1 l t1)
        else
          '(t1', shorter) <- rot_rt t1;;
          h1' <- (if shorter then i8_sub h1 1 else Ok h1);;
          '(t2, _) <- rot_lf (Node nk nv lh h1' l t1');;
          Ok t2
      else
        t1 <- join_rt c k v right;;
        h1 <- height t1;;
        ib <- is_bal lh h1;;
        let t2 := Node nk nv lh h1 l t1 in
        if ib then Ok t2
        else '(t2', _) <- rot_lf t2;; Ok t2'
    end.

  (** avl.rs:759-798 [join_lf]. *)
  Fixpoint join_lf (left : tree K V) (k : K) (v : V) (right : tree K V) : res (tree K V) :=
    match right with
    | Leaf => Panic
    | Node nk nv lh rh c r =>
      righth <- height right;;
      hl <- height left;;
      hl1 <- i8_add hl 1;;
      _ <- assert_ (hl1 <? righth);;
      hc <- height c;;
      if hc <=? hl1 then
        t1 <- opt_new k v left c;;
        h1 <- height t1;;
        ib <- is_bal h1 rh;;
        if ib then Ok (Node nk nv h1 rh t1 r)
        else
          '(t1', shorter) <- rot_lf t1;;
          h1' <- (if shorter then i8_sub h1 1 else Ok h1);;
          '(t2, _) <- rot_rt (Node nk nv h1' rh t1' r);;
          (* :786 assert!(opt_t2.as_ref().unwrap().is_bal()) *)
          match t2 with
          | Leaf => Panic
          | Node _ _ lh2 rh2 _ _ =>
            ib2 <- is_bal lh2 rh2;;
            _ <- assert_ ib2;;
            Ok t2
          end
      else
        t1 <- join_lf left k v c;;
        h1 <- height t1;;
        ib <- is_bal h1 rh;;
        let t2 := Node nk nv h1 rh t1 r in
        if ib then Ok t2
        else '(t2', _) <- rot_rt t2;; Ok t2'
    end.

  (** avl.rs:802-816 [join]. [unwrap] of a missing side is the [Leaf] case of
      [join_rt]/[join_lf]. *)
  Definition join (left : tree K V) (k : K) (v : V) (right : tree K V) : res (tree K V) :=
    hr <- height right;;
    hl <- height left;;
    b <- i8_sub hr hl;;
    if b <? -1 then join_rt left k v right
    else if 1 <? b then join_lf left k v right
    else opt_new k v left right.

  (** avl.rs:818-833 [join2]. *)
  Definition join2 (left : tree K V) (okv : option (K * V)) (right : tree K V) : res (tree K V) :=
    match okv with
    | Some (k, v) => join left k v right
    | None =>
      match left, right with
      | Leaf, _ => Ok right
      | _, Leaf => Ok left
      | _, _ =>
        '(right', kv, _) <- rm_leftmost right;;
        '(k, v) <- unwrap kv;;
        join left k v right'
      end
    end.

  (** avl.rs:697-717 [retain]. The [FnMut(&K, &mut V) -> bool] predicate is a
      state-passing function; [s] is the closure's captured state. It is called on
      the left subtree, then the right subtree, then the node. *)
  Fixpoint retain {S : Type} (f : S -> K -> V -> S * V * bool) (t : tree K V) (s : S)
    : res (tree K V * nat * S) :=
    match t with
    | Leaf => Ok (Leaf, 0%nat, s)
    | Node nk nv _ _ l r =>
      '(l', ll, s1) <- retain f l s;;
      '(r', rl, s2) <- retain f r s1;;
      let len := (ll + rl)%nat in
      match f s2 nk nv with
      | (s3, v', true) =>
        t' <- join l' nk v' r';;
        Ok (t', (len + 1)%nat, s3)
      | (s3, _, false) =>
        t' <- join2 l' None r';;
        Ok (t', len, s3)
      end
    end.

  (** avl.rs:946-979 [split]. *)
  Fixpoint split (t : tree K V) (q : Q) : res (tree K V * option (K * V) * tree K V) :=
    match t with
    | Leaf => Ok (Leaf, None, Leaf)
    | Node nk nv _ _ l r =>
      match cmp q (bor nk) with
      | Eq => Ok (l, Some (nk, nv), r)
      | Lt =>
        '(l1, kv, r1) <- split l q;;
        r1' <- join r1 nk nv r;;
        Ok (l1, kv, r1')
      | Gt =>
        '(l1, kv, r1) <- split r q;;
        l1' <- join l nk nv l1;;
        Ok (l1', kv, r1)
      end
    end.

  (** avl.rs:835-885 [Merger::merge]; [keepl]/[keepr] are the two policies
      ([true] = Keep). The recursion is on the first tree. *)
  Fixpoint merge (keepl keepr : bool) (deconflict : K * V -> K * V -> option (K * V))
           (t1 t2 : tree K V) : res (tree K V) :=
    match t1 with
    | Leaf => if keepr then Ok t2 else Ok Leaf
    | Node nk nv _ _ l r =>
      match t2 with
      | Leaf => if keepl then Ok t1 else Ok Leaf
      | Node _ _ _ _ _ _ =>
        '(t2_lt, t2_kv, t2_gt) <- split t2 (bor nk);;
        l' <- merge keepl keepr deconflict l t2_lt;;
        r' <- merge keepl keepr deconflict r t2_gt;;
        let kv := match t2_kv with
                  | None => if keepl then Some (nk, nv) else None
                  | Some kv2 => deconflict (nk, nv) kv2
                  end in
        join2 l' kv r'
      end
    end.

  (** avl.rs:887-899 [intersect]. *)
  Definition intersect := merge false false (fun lhs _ => Some lhs).
  (** avl.rs:901-913 [diff]. *)
  Definition diff := merge true false (fun _ _ => None).
  (** avl.rs:916-928 [sym_diff]. *)
  Definition sym_diff := merge true true (fun _ _ => None).
  (** avl.rs:930-942 [union]. *)
  Definition union := merge true true (fun _ rhs => Some rhs).

  (** avl.rs:155-183 [Node::chk], :328-336 [chk]. The borrowed [greatest] key is
      returned as the key itself. The inner [res] of height computations may
      panic. [k >= self.key] compares keys, i.e. their borrows. *)
  Definition ge_key (g : option K) (k : K) : bool :=
    match g with
    | None => false
    | Some g => match cmp (bor g) (bor k) with Lt => false | _ => true end
    end.

  Fixpoint chk (t : tree K V) (greatest : option K) : res (nat * option K + map_err) :=
    match t with
    | Leaf => Ok (inl (0%nat, greatest))
    | Node nk nv lh rh l r =>
      if ge_key greatest nk then Ok (inr Unsorted)
      else
        hl <- height l;;
        hr <- height r;;
        if negb (hl =? lh) || negb (hr =? rh) then Ok (inr BadHeight)
        else
          ib <- is_bal lh rh;;
          if negb ib then Ok (inr Imbalanced)
          else
            cl <- chk l greatest;;
            match cl with
            | inr e => Ok (inr e)
            | inl (lf_len, g) =>
              if ge_key g nk then Ok (inr Unsorted)
              else
                cr <- chk r (Some nk);;
                match cr with
                | inr e => Ok (inr e)
                | inl (rt_len, g') => Ok (inl ((lf_len + rt_len + 1)%nat, g'))
                end
            end
    end.

  (** ** [AvlMap] methods *)

  (** avl.rs:1371-1373 [new]. *)
  Definition avl_new : avl_map K V := AvlMap 0 Leaf.
  (** avl.rs:1007-1010 [clear]. *)
  Definition avl_clear (m : avl_map K V) : avl_map K V := AvlMap 0 Leaf.
  (** avl.rs:1356-1358 [len], :1232-1234 [is_empty]. *)
  Definition avl_len (m : avl_map K V) : nat := am_len m.
  Definition avl_is_empty (m : avl_map K V) : bool := Nat.eqb (am_len m) 0.

  (** avl.rs:1087-1103 [get_key_value]: the loop as a recursion. *)
  Fixpoint t_get (t : tree K V) (q : Q) : option (K * V) :=
    match t with
    | Leaf => None
    | Node nk nv _ _ l r =>
      match cmp q (bor nk) with
      | Lt => t_get l q
      | Eq => Some (nk, nv)
      | Gt => t_get r q
      end
    end.
  Definition avl_get_key_value (m : avl_map K V) (q : Q) : option (K * V) :=
    t_get (am_root m) q.
  (** The keys that the loop of [get_key_value] compares with [q], in order. *)
  Fixpoint t_get_visits (t : tree K V) (q : Q) : list K :=
    match t with
    | Leaf => []
    | Node nk _ _ _ l r =>
      nk :: match cmp q (bor nk) with
            | Lt => t_get_visits l q
            | Eq => []
            | Gt => t_get_visits r q
            end
    end.
  (** avl.rs:1070-1076 [get]. *)
  Definition avl_get (m : avl_map K V) (q : Q) : option V :=
    option_map snd (avl_get_key_value m q).
  (** avl.rs:1019-1025 [contains_key]. *)
  Definition avl_contains_key (m : avl_map K V) (q : Q) : bool :=
    match avl_get m q with Some _ => true | None => false end.
  (** avl.rs:302-315 [Index::index]. *)
  Definition avl_index (m : avl_map K V) (q : Q) : res V := unwrap (avl_get m q).

  (** avl.rs:1116-1133 [get_mut], followed by the caller's write through the
      returned reference: the value found (before the write) and the new tree. *)
  Fixpoint t_get_mut (t : tree K V) (q : Q) (w : V -> V) : tree K V * option V :=
    match t with
    | Leaf => (Leaf, None)
    | Node nk nv lh rh l r =>
      match cmp q (bor nk) with
      | Lt => let '(l', o) := t_get_mut l q w in (Node nk nv lh rh l' r, o)
      | Eq => (Node nk (w nv) lh rh l r, Some nv)
      | Gt => let '(r', o) := t_get_mut r q w in (Node nk nv lh rh l r', o)
      end
    end.
  Definition avl_get_mut (m : avl_map K V) (q : Q) (w : V -> V) : avl_map K V * option V :=
    let '(t, o) := t_get_mut (am_root m) q w in (AvlMap (am_len m) t, o).

  (** avl.rs:1051-1057 [first_key_value], :1337-1345 [last_key_value]. *)
  Fixpoint t_first (t : tree K V) : option (K * V) :=
    match t with
    | Leaf => None
    | Node nk nv _ _ l _ =>
      match l with Leaf => Some (nk, nv) | _ => t_first l end
    end.
  Fixpoint t_last (t : tree K V) : option (K * V) :=
    match t with
    | Leaf => None
    | Node nk nv _ _ _ r =>
      match r with Leaf => Some (nk, nv) | _ => t_last r end
    end.
  Definition avl_first_key_value (m : avl_map K V) := t_first (am_root m).
  Definition avl_last_key_value (m : avl_map K V) := t_last (am_root m).

  (** avl.rs:1145-1153 [insert]. *)
  Definition avl_insert (m : avl_map K V) (k : K) (v : V) : res (avl_map K V * option V) :=
    '(t, ret, _) <- ins (am_root m) k v;;
    Ok (AvlMap (am_len m + match ret with None => 1 | Some _ => 0 end)%nat t, ret).

  (** avl.rs:1732-1742 [remove_entry], :1711-1718 [remove]. *)
  Definition avl_remove_entry (m : avl_map K V) (q : Q) : res (avl_map K V * option (K * V)) :=
    '(t, kv, _) <- rm (am_root m) q;;
    match kv with
    | None => Ok (AvlMap (am_len m) t, None)
    | Some e => n <- usize_sub (am_len m) 1;; Ok (AvlMap n t, Some e)
    end.
  Definition avl_remove (m : avl_map K V) (q : Q) : res (avl_map K V * option V) :=
    '(m', kv) <- avl_remove_entry m q;;
    Ok (m', option_map snd kv).

  (** avl.rs:1503-1511 [pop_first], :1523-1531 [pop_last]. *)
  Definition avl_pop_first (m : avl_map K V) : res (avl_map K V * option (K * V)) :=
    '(t, kv, _) <- rm_leftmost (am_root m);;
    match kv with
    | None => Ok (AvlMap (am_len m) t, None)
    | Some e => n <- usize_sub (am_len m) 1;; Ok (AvlMap n t, Some e)
    end.
  Definition avl_pop_last (m : avl_map K V) : res (avl_map K V * option (K * V)) :=
    '(t, kv, _) <- rm_rightmost (am_root m);;
    match kv with
    | None => Ok (AvlMap (am_len m) t, None)
    | Some e => n <- usize_sub (am_len m) 1;; Ok (AvlMap n t, Some e)
    end.

  (** avl.rs:998-1006 [append]: both maps after the call. *)
  Definition avl_append (a b : avl_map K V) : res (avl_map K V * avl_map K V) :=
    t <- union (am_root a) (am_root b);;
    Ok (AvlMap (t_len t) t, AvlMap 0 Leaf).

  Definition avl_of_root (r : res (tree K V)) : res (avl_map K V) :=
    t <- r;; Ok (AvlMap (t_len t) t).
  (** avl.rs:1376-1384 [new_diff], :1399-1407 [new_intersect], :1459-1467
      [new_sym_diff], :1483-1491 [new_union]. *)
  Definition avl_new_diff (a b : avl_map K V) := avl_of_root (diff (am_root a) (am_root b)).
  Definition avl_new_intersect (a b : avl_map K V) := avl_of_root (intersect (am_root a) (am_root b)).
  Definition avl_new_sym_diff (a b : avl_map K V) := avl_of_root (sym_diff (am_root a) (am_root b)).
  Definition avl_new_union (a b : avl_map K V) := avl_of_root (union (am_root a) (am_root b)).

  (** avl.rs:1431-1443 [new_join], with its [debug_assert!]s. *)
  Definition avl_new_join (a : avl_map K V) (k : K) (v : V) (b : avl_map K V) : res (avl_map K V) :=
    _ <- assert_ (match avl_last_key_value a with
                  | None => true
                  | Some (ka, _) => match cmp (bor ka) (bor k) with Lt => true | _ => false end
                  end);;
    _ <- assert_ (match avl_first_key_value b with
                  | None => true
                  | Some (kb, _) => match cmp (bor k) (bor kb) with Lt => true | _ => false end
                  end);;
    t <- join (am_root a) k v (am_root b);;
    Ok (AvlMap (am_len a + 1 + am_len b)%nat t).

  (** avl.rs:1759-1768 [retain]. *)
  Definition avl_retain {S} (f : S -> K -> V -> S * V * bool) (m : avl_map K V) (s : S)
    : res (avl_map K V * S) :=
    '(t, n, s') <- retain f (am_root m) s;;
    Ok (AvlMap n t, s').

  (** avl.rs:1784-1806 [split_off]: what stays, what is returned. *)
  Definition avl_split_off (m : avl_map K V) (q : Q) : res (avl_map K V * avl_map K V) :=
    '(lhs, kv, rhs) <- split (am_root m) q;;
    let len_lhs := t_len lhs in
    len_rhs <- usize_sub (am_len m) len_lhs;;
    rhs' <- match kv with
            | Some (k, v) => '(r, _, _) <- ins rhs k v;; Ok r
            | None => Ok rhs
            end;;
    Ok (AvlMap len_lhs lhs, AvlMap len_rhs rhs').

  (** avl.rs:119-132 [Node::for_each], :1864 [for_each]; the [FnMut] visitor is a
      state-passing function. *)
  Fixpoint for_each {S} (g : S -> K -> V -> S) (t : tree K V) (s : S) : S :=
    match t with
    | Leaf => s
    | Node nk nv _ _ l r => for_each g r (g (for_each g l s) nk nv)
    end.

  (** avl.rs:134-150 [Node::for_each_mut], :1885 [for_each_mut]. *)
  Fixpoint for_each_mut {S} (g : S -> K -> V -> S * V) (t : tree K V) (s : S) : tree K V * S :=
    match t with
    | Leaf => (Leaf, s)
    | Node nk nv lh rh l r =>
      let '(l', s1) := for_each_mut g l s in
      let '(s2, v') := g s1 nk nv in
      let '(r', s3) := for_each_mut g r s2 in
      (Node nk v' lh rh l' r', s3)
    end.
  Definition avl_for_each_mut {S} (g : S -> K -> V -> S * V) (m : avl_map K V) (s : S)
    : avl_map K V * S :=
    let '(t, s') := for_each_mut g (am_root m) s in (AvlMap (am_len m) t, s').

  (** avl.rs:1897-1911 [AvlMap::chk]; [Map::check] (:2316-2324) maps it to a string. *)
  Definition avl_chk (m : avl_map K V) : res (unit + map_err) :=
    c <- chk (am_root m) None;;
    match c with
    | inl (n, _) => if Nat.eqb n (am_len m) then Ok (inl tt) else Ok (inr (BadLen n))
    | inr e => Ok (inr e)
    end.

  (** avl.rs:2286-2292 [extend], :2304-2309 [from_iter], :2294-2302 [From<[_; N]>]. *)
  Fixpoint avl_extend (m : avl_map K V) (ps : list (K * V)) : res (avl_map K V) :=
    match ps with
    | [] => Ok m
    | (k, v) :: ps' =>
      '(m', _) <- avl_insert m k v;;
      avl_extend m' ps'
    end.
  Definition avl_from_iter (ps : list (K * V)) : res (avl_map K V) := avl_extend avl_new ps.
End Avl.
