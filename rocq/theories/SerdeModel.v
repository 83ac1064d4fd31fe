(** Model of the [serde] support: [/repo/src/lib.rs] [MapVisitor::visit_map] over the
    trait [Map], the two implementations of the trait in [avl.rs] and [btree.rs], and
    the [Serialize] implementations.

    The data format is a parameter. A format that is being read is what [MapAccess]
    offers: a size hint (any number that fits a [usize], or none), the entries in the order in
    which [next_entry] yields them, and then either the end or an error.
    [debug]: whether the build checks arithmetic overflow and [debug_assert!]. *)
From Coq Require Import List NArith ZArith Bool.
From Verif Require Import Base Vec AvlModel AvlIterModel BTreeModel BTreeIterModel.
Import ListNotations.
Local Open Scope nat_scope.

(** ** lib.rs: the visitor *)
Section Visitor.
  Context {K V M H E : Type}.
  Notation entry := (K * V)%type.

  (** lib.rs:195-251 [trait Map], as far as the visitor uses it. [make_half] empties the
      vector it is given: what is left of it is returned. [check_half] yields the length, or
      whether the error is ["Unsorted"]. *)
  Record map_impl := MapImpl {
    mi_max_half_len : N;
    mi_new : M;
    mi_insert : M -> K -> V -> res M;
    mi_make_half : list entry -> res (H * list entry);
    mi_make_whole : H -> N -> res M;
    mi_stitch : H -> H -> res H;
    mi_check_half : H -> res (nat + bool) }.
  Context (debug : bool) (ops : map_impl).

  (** [MapAccess]: what is still to come. *)
  Record access := Access { ac_items : list entry; ac_end : option E }.
  (** [MapAccess::next_entry]: [inl (Some _)] an entry, [inl None] the end, [inr] an error. *)
  Definition next_entry (a : access) : (option entry + E) * access :=
    match ac_items a with
    | kv :: r => (inl (Some kv), Access r (ac_end a))
    | [] => (match ac_end a with Some e => inr e | None => inl None end, a)
    end.

  (** lib.rs:190-193. *)
  Inductive stitch_err := TooFewElems (h : option H) | Other (e : E).

  (** lib.rs:387-406: the loop that fills [scratch], and what follows it. *)
  Fixpoint fill (n : nat) (a : access) (scratch : list entry)
    : res ((H + stitch_err) * access * list entry) :=
    match n with
    | O => '(h, scratch') <- mi_make_half ops scratch;; Ok (inl h, a, scratch')
    | S n' =>
      match next_entry a with
      | (inl (Some kv), a') => fill n' a' (scratch ++ [kv])
      | (inl None, a') =>
        if is_nil scratch then Ok (inr (TooFewElems None), a', scratch)
        else
          '(h, scratch') <- mi_make_half ops scratch;;
          Ok (inr (TooFewElems (Some h)), a', scratch')
      | (inr e, a') => Ok (inr (Other e), a', scratch)
      end
    end.

  (** [usize] arithmetic. *)
  Definition usize_add1 (n : N) : res N :=
    if (n + 1 <? 2 ^ 64)%N then Ok (n + 1)%N else if debug then Panic else Ok 0%N.
  Definition usize_subN (a b : N) : res N :=
    if (b <=? a)%N then Ok (a - b)%N else if debug then Panic else Ok (a + 2 ^ 64 - b)%N.

  (** lib.rs:372-429 [build_map_by_halves]. [fuel] bounds the depth of the recursion, which
      halves [len] ([Panic] if exceeded: 66 is enough for a [usize]). *)
  Fixpoint build_map_by_halves (fuel : nat) (a : access) (len : N) (scratch : list entry)
    : res ((H + stitch_err) * access * list entry) :=
    match fuel with
    | O => Panic
    | S fuel' =>
      _ <- assert_ (0 <? len)%N;;
      if (len <=? mi_max_half_len ops)%N then
        _ <- assert_ (is_nil scratch);;
        fill (N.to_nat len) a scratch
      else
        len1 <- usize_add1 len;;
        let lf_len := (len1 / 2)%N in
        rt_len <- usize_subN len lf_len;;
        '(lhs, a1, s1) <- build_map_by_halves fuel' a lf_len scratch;;
        match lhs with
        | inr e => Ok (inr e, a1, s1)
        | inl lhs =>
          '(rhs, a2, s2) <- build_map_by_halves fuel' a1 rt_len s1;;
          match rhs with
          | inl rhs => h <- mi_stitch ops lhs rhs;; Ok (inl h, a2, s2)
          | inr (TooFewElems None) => Ok (inr (TooFewElems (Some lhs)), a2, s2)
          | inr (TooFewElems (Some rhs)) =>
            h <- mi_stitch ops lhs rhs;; Ok (inr (TooFewElems (Some h)), a2, s2)
          | inr (Other e) => Ok (inr (Other e), a2, s2)
          end
        end
    end.

  (** lib.rs:467-469: the final loop. *)
  Fixpoint insert_rest (m : M) (items : list entry) (e : option E) : res (M + E) :=
    match items with
    | [] => match e with Some e => Ok (inr e) | None => Ok (inl m) end
    | (k, v) :: r => m' <- mi_insert ops m k v;; insert_rest m' r e
    end.

  (** lib.rs:368-472 [visit_map]. *)
  Definition visit_map (hint : option N) (a : access) : res (M + E) :=
    match hint with
    | Some len =>
      if (0 <? len)%N then
        '(r, a1, _) <- build_map_by_halves 66 a len [];;
        match r with
        | inl h =>
          _ <- (if debug then
                  c <- mi_check_half ops h;;
                  assert_ (match c with
                           | inl sz => (len =? N.of_nat sz)%N
                           | inr unsorted => unsorted
                           end)
                else Ok tt);;
          m <- mi_make_whole ops h len;;
          insert_rest m (ac_items a1) (ac_end a1)
        | inr (TooFewElems (Some h)) => m <- mi_make_whole ops h len;; Ok (inl m)
        | inr (TooFewElems None) => Ok (inl (mi_new ops))
        | inr (Other e) => Ok (inr e)
        end
      else insert_rest (mi_new ops) (ac_items a) (ac_end a)
    | None => insert_rest (mi_new ops) (ac_items a) (ac_end a)
    end.
End Visitor.
Arguments map_impl : clear implicits.
Arguments access : clear implicits.
Arguments Access {K V E}.

(** ** avl.rs *)
Section AvlSerde.
  Context {K V Q : Type} (bor : K -> Q) (cmp : Q -> Q -> comparison).
  Notation entry := (K * V)%type.

  (** avl.rs:2310-2312 [Half]. *)
  Definition avl_half := (tree K V * K * V)%type.

  (** avl.rs:2332-2350 [check_half]. *)
  Definition avl_check_half (h : avl_half) : res (nat + bool) :=
    let '(n, k, _) := h in
    c <- chk bor cmp n None;;
    match c with
    | inl (len, greatest) =>
      if ge_key bor cmp greatest k then Ok (inr true) else Ok (inl (len + 1))
    | inr AvlModel.Unsorted => Ok (inr true)
    | inr _ => Ok (inr false)
    end.

  (** avl.rs:2378-2392 [make_half]. *)
  Definition avl_make_half (elems : list entry) : res (avl_half * list entry) :=
    _ <- assert_ ((1 <=? length elems) && (length elems <=? 2));;
    '(kv1, elems1) <- unwrap (vec_pop elems);;
    match vec_pop elems1 with
    | Some (kv0, elems0) =>
      n <- opt_new (fst kv0) (snd kv0) Leaf Leaf;;
      Ok ((n, fst kv1, snd kv1), elems0)
    | None => Ok ((Leaf, fst kv1, snd kv1), elems1)
    end.

  (** avl.rs:2394-2422 [make_whole]; [into_iter] of the ill-formed map may find
      more in [len] than there are entries, or trees that are not balanced or sorted. *)
  Definition avl_make_whole (h : avl_half) (len : N) : res (avl_map K V) :=
    let '(n, k, v) := h in
    let m := AvlMap (N.to_nat (N.pred len)) n in
    c <- avl_chk bor cmp m;;
    m1 <- match c with
          | inr (AvlModel.BadLen correct_len) => Ok (AvlMap correct_len n)
          | inr _ => l <- avl_collect m;; avl_extend bor cmp avl_new l
          | inl _ => Ok m
          end;;
    '(m2, _) <- avl_insert bor cmp m1 k v;;
    Ok m2.

  (** avl.rs:2424-2433 [stitch]. *)
  Definition avl_stitch (lf rt : avl_half) : res avl_half :=
    let '(lf, mid_k, mid_v) := lf in
    let '(rt, hi_k, hi_v) := rt in
    n <- opt_new mid_k mid_v lf rt;;
    Ok (n, hi_k, hi_v).

  (** avl.rs:2314-2434 [impl Map for AvlMap]. *)
  Definition avl_impl : map_impl K V (avl_map K V) avl_half :=
    MapImpl 2%N avl_new
            (fun m k v => '(m', _) <- avl_insert bor cmp m k v;; Ok m')
            avl_make_half avl_make_whole avl_stitch avl_check_half.

  (** avl.rs:2456-2472 [Deserialize]. *)
  Definition avl_deserialize {E} (debug : bool) (hint : option N) (a : access K V E) : res (avl_map K V + E) :=
    visit_map debug avl_impl hint a.

  (** avl.rs:2437-2453 [Serialize]: the length announced to [serialize_map], and the entries
      given to [serialize_entry], in order. *)
  Definition avl_serialize (m : avl_map K V) : res (option N * list entry) :=
    l <- avl_collect m;; Ok (Some (N.of_nat (avl_len m)), l).
End AvlSerde.

(** ** btree.rs *)
Section BTreeSerde.
  Context {K V Q : Type} (bor : K -> Q) (cmp : Q -> Q -> comparison) (NB : nat).
  Notation entry := (K * V)%type.
  Notation bt := (bt K V).
  (** Whether [try_unwrap] in the owning iterator finds a node unshared: any function. *)
  Context (un : bt -> bool).

  (** btree.rs:1049-1054 [InnerHalf], [Half]: a node with its height. *)
  Definition b_half := (option (bt * nat) * K * V)%type.

  (** btree.rs:1072-1093 [check_half]. *)
  Definition b_check_half (h : b_half) : res (nat + bool) :=
    let '(n, k, _) := h in
    c <- match n with Some (t, _) => n_chk bor cmp NB 1 t None | None => chk_none None end;;
    match c with
    | inl c =>
      if match ck_greatest c with Some g => key_ge bor cmp g k | None => false end
      then Ok (inr true) else Ok (inl (ck_len c + 1))
    | inr BTreeModel.Unsorted => Ok (inr true)
    | inr _ => Ok (inr false)
    end.

  (** btree.rs:1125-1148 [make_half]. *)
  Definition b_make_half (elems : list entry) : res (b_half * list entry) :=
    _ <- assert_ ((1 <=? length elems) && (length elems <=? MAX_OCC NB + 1));;
    '(kv, elems1) <- unwrap (vec_pop elems);;
    if is_nil elems1 then Ok ((None, fst kv, snd kv), elems1)
    else Ok ((Some (BN elems1 [], 1), fst kv, snd kv), []).

  (** btree.rs:1150-1179 [make_whole]. *)
  Definition b_make_whole (h : b_half) (len : N) : res (bt_map K V) :=
    let '(n, k, v) := h in
    let root := option_map fst n in
    let m := BMap (N.to_nat (N.pred len)) root in
    c <- b_chk bor cmp NB m;;
    m1 <- match c with
          | inr (BTreeModel.BadLen correct_len) => Ok (BMap correct_len root)
          | inr _ => l <- b_into_list un m;; b_extend bor cmp NB b_new l
          | inl _ => Ok m
          end;;
    '(m2, _) <- b_insert bor cmp NB m1 k v;;
    Ok m2.

  (** btree.rs:238-254, 263-279: a node that got one entry too many is split. *)
  Definition split_root (t : bt) (ht : nat) : res (bt * nat) :=
    if MAX_OCC NB <? n_len t then
      '(t', r) <- n_split NB t;;
      match r with
      | Split lf k v => l <- unwrap lf;; Ok (BN [(k, v)] [l; t'], ht + 1)
      | _ => Panic
      end
    else Ok (t, ht).

  (** btree.rs:216-321 [Node::stitch], :1181-1185 [stitch]. The nodes were just made, so
      [Arc::get_mut] finds them unshared. *)
  Definition b_stitch (lf rt : b_half) : res b_half :=
    let '(ln, lk, lv) := lf in
    let '(rn, rk, rv) := rt in
    match ln, rn with
    | None, None => Ok (Some (BN [(lk, lv)] [], 1), rk, rv)
    | Some (BN es ks, ht), None =>
      x <- split_root (BN (es ++ [(lk, lv)]) ks) ht;; Ok (Some x, rk, rv)
    | None, Some (BN es ks, ht) =>
      _ <- assert_ (is_nil ks);;
      x <- split_root (BN ((lk, lv) :: es) ks) ht;; Ok (Some x, rk, rv)
    | Some (BN les lks, lf_ht), Some (BN res_ rks, rt_ht) =>
      _ <- assert_ (0 <? rt_ht);;
      _ <- assert_ (rt_ht <=? lf_ht);;
      if rt_ht <? lf_ht then
        Ok (Some (BN (les ++ [(lk, lv)]) (lks ++ [BN res_ rks]), lf_ht), rk, rv)
      else if length les + 1 + length res_ <? MAX_OCC NB then
        Ok (Some (BN (les ++ [(lk, lv)] ++ res_) (lks ++ rks), lf_ht), rk, rv)
      else
        _ <- assert_ (MIN_OCC NB <=? length les);;
        Ok (Some (BN [(lk, lv)] [BN les lks; BN res_ rks], lf_ht + 1), rk, rv)
    end.

  (** btree.rs:1056-1186 [impl Map for BTreeMap]. *)
  Definition b_impl : map_impl K V (bt_map K V) b_half :=
    MapImpl (N.of_nat (MAX_OCC NB + 1)) b_new
            (fun m k v => '(m', _) <- b_insert bor cmp NB m k v;; Ok m')
            b_make_half b_make_whole b_stitch b_check_half.

  (** btree.rs:2277-2294 [Deserialize]. *)
  Definition b_deserialize {E} (debug : bool) (hint : option N) (a : access K V E) : res (bt_map K V + E) :=
    visit_map debug b_impl hint a.

  (** btree.rs:2258-2275 [Serialize]. *)
  Definition b_serialize (m : bt_map K V) : res (option N * list entry) :=
    l <- b_collect m;; Ok (Some (N.of_nat (b_len m)), l).
End BTreeSerde.
