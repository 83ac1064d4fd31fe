(** The functions of [/repo/src/avl.rs] that write, with the sharing of nodes: every
    [Arc<Node>] is a cell of the reference-counted heap of [Heap]. The numbers computed
    are those of the value model [AvlModel]; here is what happens to the nodes.

    An [&mut OptNode] argument is a slot: its content is passed in and the new content
    is returned. [&mut Node] into a cell, which [make_mut] hands out only for a uniquely
    owned cell, is modelled by taking the content out of the cell ([opn]) and putting it
    back ([cls]). [bomb n = true] says that the user's [clone] call number [n] panics;
    the call then ends with [Unwound]: the local variables are dropped, the slots that
    belong to the caller are returned as they were left.

    [fuel] bounds the recursion depth ([Panic] if exceeded). Heights are [i8] in Rust, so
    that [depth] is no restriction. Arithmetic overflow and failed [unwrap]s are [Panic];
    the theorems exclude them. *)
From Coq Require Import List ZArith Bool.
From Verif Require Import Base Spec Heap AvlModel.
Import ListNotations.
Local Open Scope Z_scope.

(** The data fields of avl.rs:63-71 [struct Node]. The pointers [left], [right] are the two
    kids of the cell. *)
Record pay (K V : Type) := Pay { pk : K; pv : V; plh : Z; prh : Z }.
Arguments Pay {K V} pk pv plh prh.
Arguments pk {K V} p.
Arguments pv {K V} p.
Arguments plh {K V} p.
Arguments prh {K V} p.

Inductive out (A : Type) := Done (a : A) | Unwound.
Arguments Done {A} a.
Arguments Unwound {A}.

Definition depth : nat := 128.

(** avl.rs:230-234 [struct AvlMap]. *)
Record hmap := HMap { hm_len : nat; hm_root : ptr }.

Section AvlHeap.
  Context {K V Q : Type} (bor : K -> Q) (cmp : Q -> Q -> comparison).
  Variable bomb : nat -> bool.
  Notation pay := (pay K V).
  Notation heap := (heap pay).

  Definition set_lh (d : pay) (z : Z) : pay := Pay (pk d) (pv d) z (prh d).
  Definition set_rh (d : pay) (z : Z) : pay := Pay (pk d) (pv d) (plh d) z.
  Definition set_val (d : pay) (v : V) : pay := Pay (pk d) v (plh d) (prh d).
  (** avl.rs:105-107 [Node::height]. *)
  Definition pay_ht (d : pay) : res Z := i8_add (Z.max (plh d) (prh d)) 1.

  (** [Arc::make_mut], and the node it gives access to. *)
  Definition opn (h : heap) (a : addr) : res (heap * out (addr * pay * ptr * ptr)) :=
    '(h1, r) <- make_mut bomb h a;;
    match r with
    | None => Ok (h1, Unwound)
    | Some a' =>
      '(h2, n) <- take h1 a';;
      match nd_kids n with
      | [l; r] => Ok (h2, Done (a', nd_data n, l, r))
      | _ => Panic
      end
    end.
  Definition cls (h : heap) (a : addr) (d : pay) (l r : ptr) : heap := give h a (Nd d [l; r]).

  (** Dropping what a function still holds when it unwinds. *)
  Definition unwind {A} (h : heap) (ps : list ptr) : res (heap * out A) :=
    h' <- drops h ps;; Ok (h', Unwound).
  Definition unwind_slot {A} (h : heap) (ps : list ptr) : res (heap * ptr * out A) :=
    h' <- drops h ps;; Ok (h', None, Unwound).

  (** Reading. *)
  Definition peek (h : heap) (p : ptr) : res (option pay) :=
    match p with
    | None => Ok None
    | Some a => match get h a with
                | Some (_, n) => Ok (Some (nd_data n))
                | None => Panic
                end
    end.
  (** avl.rs:317-319 [height]. *)
  Definition h_height (h : heap) (p : ptr) : res Z :=
    o <- peek h p;;
    match o with None => Ok 0 | Some d => pay_ht d end.

  (** avl.rs:349-377 [rot_lf]. *)
  Definition h_rot_lf (h : heap) (root : ptr) : res (heap * ptr * out bool) :=
    a <- unwrap root;;
    '(h1, r1) <- opn h a;;
    match r1 with
    | Unwound => unwind_slot h1 [Some a]
    | Done (a', ad, x, b_opt) =>
      b <- unwrap b_opt;;
      '(h2, r2) <- opn h1 b;;
      match r2 with
      | Unwound => unwind_slot (cls h2 a' ad x None) [Some b; Some a']
      | Done (b', bd, y, z) =>
        b_bal <- bal (plh bd) (prh bd);;
        let ad' := set_rh ad (plh bd) in
        ah <- pay_ht ad';;
        let h3 := cls h2 a' ad' x y in
        Ok (cls h3 b' (set_lh bd ah) (Some a') z, Some b', Done (negb (b_bal =? 0)))
      end
    end.

  (** avl.rs:379-421 [rot_rt_lf]. *)
  Definition h_rot_rt_lf (h : heap) (root : ptr) : res (heap * ptr * out bool) :=
    a <- unwrap root;;
    '(h1, r1) <- opn h a;;
    match r1 with
    | Unwound => unwind_slot h1 [Some a]
    | Done (a', ad, x, b_opt) =>
      b <- unwrap b_opt;;
      '(h2, r2) <- opn h1 b;;
      match r2 with
      | Unwound => unwind_slot (cls h2 a' ad x None) [Some b; Some a']
      | Done (b', bd, c_opt, w) =>
        c <- unwrap c_opt;;
        '(h3, r3) <- opn h2 c;;
        match r3 with
        | Unwound => unwind_slot (cls (cls h3 b' bd None w) a' ad x None) [Some c; Some b'; Some a']
        | Done (c', cd, y, z) =>
          let ad' := set_rh ad (plh cd) in
          let bd' := set_lh bd (prh cd) in
          ah <- pay_ht ad';;
          bh <- pay_ht bd';;
          let h4 := cls (cls h3 a' ad' x y) b' bd' z w in
          Ok (cls h4 c' (set_rh (set_lh cd ah) bh) (Some a') (Some b'), Some c', Done true)
        end
      end
    end.

  (** avl.rs:423-454 [rot_rt]. *)
  Definition h_rot_rt (h : heap) (root : ptr) : res (heap * ptr * out bool) :=
    a <- unwrap root;;
    '(h1, r1) <- opn h a;;
    match r1 with
    | Unwound => unwind_slot h1 [Some a]
    | Done (a', ad, b_opt, z) =>
      b <- unwrap b_opt;;
      '(h2, r2) <- opn h1 b;;
      match r2 with
      | Unwound => unwind_slot (cls h2 a' ad None z) [Some b; Some a']
      | Done (b', bd, x, y) =>
        b_bal <- bal (plh bd) (prh bd);;
        let ad' := set_lh ad (prh bd) in
        ah <- pay_ht ad';;
        let h3 := cls h2 a' ad' y z in
        Ok (cls h3 b' (set_rh bd ah) x (Some a'), Some b', Done (negb (b_bal =? 0)))
      end
    end.

  (** avl.rs:456-493 [rot_lf_rt]. *)
  Definition h_rot_lf_rt (h : heap) (root : ptr) : res (heap * ptr * out bool) :=
    a <- unwrap root;;
    '(h1, r1) <- opn h a;;
    match r1 with
    | Unwound => unwind_slot h1 [Some a]
    | Done (a', ad, b_opt, w) =>
      b <- unwrap b_opt;;
      '(h2, r2) <- opn h1 b;;
      match r2 with
      | Unwound => unwind_slot (cls h2 a' ad None w) [Some b; Some a']
      | Done (b', bd, x, c_opt) =>
        c <- unwrap c_opt;;
        '(h3, r3) <- opn h2 c;;
        match r3 with
        | Unwound => unwind_slot (cls (cls h3 b' bd x None) a' ad None w) [Some c; Some b'; Some a']
        | Done (c', cd, y, z) =>
          let bd' := set_rh bd (plh cd) in
          let ad' := set_lh ad (prh cd) in
          bh <- pay_ht bd';;
          ah <- pay_ht ad';;
          let h4 := cls (cls h3 b' bd' x y) a' ad' z w in
          Ok (cls h4 c' (set_rh (set_lh cd bh) ah) (Some b') (Some a'), Some c', Done true)
        end
      end
    end.

  (** avl.rs:496-508 [rebal_lf_to_rt]; [Arc::get_mut(..).unwrap()] panics if the root is
      shared. *)
  Definition h_rebal_lf_to_rt (h : heap) (root : ptr) : res (heap * ptr * out bool) :=
    a <- unwrap root;;
    match get h a with
    | Some (1%nat, Nd _ [l; _]) =>
      o <- peek h l;;
      d <- unwrap o;;
      b <- bal (plh d) (prh d);;
      if b <=? 0 then h_rot_rt h root else h_rot_lf_rt h root
    | _ => Panic
    end.

  (** avl.rs:511-523 [rebal_rt_to_lf]. *)
  Definition h_rebal_rt_to_lf (h : heap) (root : ptr) : res (heap * ptr * out bool) :=
    a <- unwrap root;;
    match get h a with
    | Some (1%nat, Nd _ [_; r]) =>
      o <- peek h r;;
      d <- unwrap o;;
      b <- bal (plh d) (prh d);;
      if 0 <=? b then h_rot_lf h root else h_rot_rt_lf h root
    | _ => Panic
    end.

  (** What follows a rebalancing call in tail position. *)
  Definition then_ {A B} (x : heap * ptr * out A) (f : A -> B) : heap * ptr * out B :=
    match x with
    | (h, p, Done a) => (h, p, Done (f a))
    | (h, p, Unwound) => (h, p, Unwound)
    end.

  (** avl.rs:527-569 [ins]. *)
  Fixpoint h_ins (fuel : nat) (h : heap) (root : ptr) (k : K) (v : V)
    : res (heap * ptr * out (option V * bool)) :=
    match fuel with
    | O => Panic
    | S fuel' =>
      match root with
      | None =>
        let '(h1, a) := alloc h (Nd (Pay k v 0 0) [None; None]) in
        Ok (h1, Some a, Done (None, true))
      | Some rc =>
        '(h1, r1) <- opn h rc;;
        match r1 with
        | Unwound => Ok (h1, root, Unwound)
        | Done (a, d, l, r) =>
          match cmp (bor k) (bor (pk d)) with
          | Eq => Ok (cls h1 a (Pay k v (plh d) (prh d)) l r, Some a, Done (Some (pv d), false))
          | Lt =>
            '(h2, l', o) <- h_ins fuel' h1 l k v;;
            match o with
            | Unwound => Ok (cls h2 a d l' r, Some a, Unwound)
            | Done (old, taller) =>
              lh' <- i8_add (plh d) (b2z taller);;
              let d' := set_lh d lh' in
              let h3 := cls h2 a d' l' r in
              if taller then
                b <- bal lh' (prh d);;
                if b <? -1 then
                  x <- h_rebal_lf_to_rt h3 (Some a);;
                  Ok (then_ x (fun _ => (old, false)))
                else Ok (h3, Some a, Done (old, b <? 0))
              else Ok (h3, Some a, Done (old, false))
            end
          | Gt =>
            '(h2, r', o) <- h_ins fuel' h1 r k v;;
            match o with
            | Unwound => Ok (cls h2 a d l r', Some a, Unwound)
            | Done (old, taller) =>
              rh' <- i8_add (prh d) (b2z taller);;
              let d' := set_rh d rh' in
              let h3 := cls h2 a d' l r' in
              if taller then
                b <- bal (plh d) rh';;
                if 1 <? b then
                  x <- h_rebal_rt_to_lf h3 (Some a);;
                  Ok (then_ x (fun _ => (old, false)))
                else Ok (h3, Some a, Done (old, 0 <? b))
              else Ok (h3, Some a, Done (old, false))
            end
          end
        end
      end
    end.

  (** avl.rs:584-590, 640-646: the end of a removal from the left subtree; the node is open
      at [a]. *)
  Definition h_after_rm_left (h : heap) (a : addr) (d : pay) (l' r : ptr) (shorter : bool)
    : res (heap * ptr * out bool) :=
    lh' <- i8_sub (plh d) (b2z shorter);;
    let h1 := cls h a (set_lh d lh') l' r in
    if shorter then
      b <- bal lh' (prh d);;
      if 1 <? b then h_rebal_rt_to_lf h1 (Some a) else Ok (h1, Some a, Done (b =? 0))
    else Ok (h1, Some a, Done false).

  (** avl.rs:611-617, 650-656, 684-690. *)
  Definition h_after_rm_right (h : heap) (a : addr) (d : pay) (l r' : ptr) (shorter : bool)
    : res (heap * ptr * out bool) :=
    rh' <- i8_sub (prh d) (b2z shorter);;
    let h1 := cls h a (set_rh d rh') l r' in
    if shorter then
      b <- bal (plh d) rh';;
      if b <? -1 then h_rebal_lf_to_rt h1 (Some a) else Ok (h1, Some a, Done (b =? 0))
    else Ok (h1, Some a, Done false).

  (** avl.rs:341-347 [take_node], of a node that has been opened: the cell at [a] was taken
      uniquely by [opn], closed again, and [Arc::try_unwrap] takes it once more ([Panic] if it
      were shared). *)
  Definition h_take_node (h : heap) (a : addr) (d : pay) (l r : ptr) : res (heap * pay * ptr * ptr) :=
    '(h1, n) <- take (cls h a d l r) a;;
    match nd_kids n with
    | [l'; r'] => Ok (h1, nd_data n, l', r')
    | _ => Panic
    end.

  (** avl.rs:573-596 [rm_leftmost]. *)
  Fixpoint h_rm_leftmost (fuel : nat) (h : heap) (root : ptr)
    : res (heap * ptr * out (option (K * V) * bool)) :=
    match fuel with
    | O => Panic
    | S fuel' =>
      match root with
      | None => Ok (h, None, Done (None, false))
      | Some rc =>
        '(h1, r1) <- opn h rc;;
        match r1 with
        | Unwound => Ok (h1, root, Unwound)
        | Done (a, d, l, r) =>
          match l with
          | Some _ =>
            '(h2, l', o) <- h_rm_leftmost fuel' h1 l;;
            match o with
            | Unwound => Ok (cls h2 a d l' r, Some a, Unwound)
            | Done (kv, shorter) =>
              x <- h_after_rm_left h2 a d l' r shorter;;
              Ok (then_ x (fun s => (kv, s)))
            end
          | None =>
            '(h2, d', _, r') <- h_take_node h1 a d l r;;
            Ok (h2, r', Done (Some (pk d', pv d'), true))
          end
        end
      end
    end.

  (** avl.rs:600-623 [rm_rightmost]. *)
  Fixpoint h_rm_rightmost (fuel : nat) (h : heap) (root : ptr)
    : res (heap * ptr * out (option (K * V) * bool)) :=
    match fuel with
    | O => Panic
    | S fuel' =>
      match root with
      | None => Ok (h, None, Done (None, false))
      | Some rc =>
        '(h1, r1) <- opn h rc;;
        match r1 with
        | Unwound => Ok (h1, root, Unwound)
        | Done (a, d, l, r) =>
          match r with
          | Some _ =>
            '(h2, r', o) <- h_rm_rightmost fuel' h1 r;;
            match o with
            | Unwound => Ok (cls h2 a d l r', Some a, Unwound)
            | Done (kv, shorter) =>
              x <- h_after_rm_right h2 a d l r' shorter;;
              Ok (then_ x (fun s => (kv, s)))
            end
          | None =>
            '(h2, d', l', _) <- h_take_node h1 a d l r;;
            Ok (h2, l', Done (Some (pk d', pv d'), true))
          end
        end
      end
    end.

  (** avl.rs:627-695 [rm]. *)
  Fixpoint h_rm (fuel : nat) (h : heap) (root : ptr) (q : Q)
    : res (heap * ptr * out (option (K * V) * bool)) :=
    match fuel with
    | O => Panic
    | S fuel' =>
      match root with
      | None => Ok (h, None, Done (None, false))
      | Some rc =>
        '(h1, r1) <- opn h rc;;
        match r1 with
        | Unwound => Ok (h1, root, Unwound)
        | Done (a, d, l, r) =>
          match cmp q (bor (pk d)) with
          | Lt =>
            '(h2, l', o) <- h_rm fuel' h1 l q;;
            match o with
            | Unwound => Ok (cls h2 a d l' r, Some a, Unwound)
            | Done (kv, shorter) =>
              x <- h_after_rm_left h2 a d l' r shorter;;
              Ok (then_ x (fun s => (kv, s)))
            end
          | Gt =>
            '(h2, r', o) <- h_rm fuel' h1 r q;;
            match o with
            | Unwound => Ok (cls h2 a d l r', Some a, Unwound)
            | Done (kv, shorter) =>
              x <- h_after_rm_right h2 a d l r' shorter;;
              Ok (then_ x (fun s => (kv, s)))
            end
          | Eq =>
            match l, r with
            | None, None =>
              '(h2, d', _, _) <- h_take_node h1 a d l r;;
              Ok (h2, None, Done (Some (pk d', pv d'), true))
            | None, Some _ =>
              '(h2, d', _, r') <- h_take_node h1 a d l r;;
              Ok (h2, r', Done (Some (pk d', pv d'), true))
            | Some _, None =>
              '(h2, d', l', _) <- h_take_node h1 a d l r;;
              Ok (h2, l', Done (Some (pk d', pv d'), true))
            | Some _, Some _ =>
              '(h2, r', o) <- h_rm_leftmost fuel' h1 r;;
              match o with
              | Unwound => Ok (cls h2 a d l r', Some a, Unwound)
              | Done (succ, shorter) =>
                '(sk, sv) <- unwrap succ;;
                x <- h_after_rm_right h2 a (Pay sk sv (plh d) (prh d)) l r' shorter;;
                Ok (then_ x (fun s => (Some (pk d, pv d), s)))
              end
            end
          end
        end
      end
    end.

  (** avl.rs:1116-1133 [get_mut] and the caller's write [w] through the reference. *)
  Fixpoint h_get_mut (fuel : nat) (h : heap) (root : ptr) (q : Q) (w : V -> V)
    : res (heap * ptr * out (option V)) :=
    match fuel with
    | O => Panic
    | S fuel' =>
      match root with
      | None => Ok (h, None, Done None)
      | Some rc =>
        '(h1, r1) <- opn h rc;;
        match r1 with
        | Unwound => Ok (h1, root, Unwound)
        | Done (a, d, l, r) =>
          match cmp q (bor (pk d)) with
          | Lt => '(h2, l', o) <- h_get_mut fuel' h1 l q w;; Ok (cls h2 a d l' r, Some a, o)
          | Eq => Ok (cls h1 a (set_val d (w (pv d))) l r, Some a, Done (Some (pv d)))
          | Gt => '(h2, r', o) <- h_get_mut fuel' h1 r q w;; Ok (cls h2 a d l r', Some a, o)
          end
        end
      end
    end.

  (** avl.rs:134-150 [Node::for_each_mut], :1885-1893 [for_each_mut]. *)
  Fixpoint h_for_each_mut {S} (g : S -> K -> V -> S * V) (fuel : nat) (h : heap) (root : ptr) (s : S)
    : res (heap * ptr * out S) :=
    match fuel with
    | O => Panic
    | Datatypes.S fuel' =>
      match root with
      | None => Ok (h, None, Done s)
      | Some rc =>
        '(h1, r1) <- opn h rc;;
        match r1 with
        | Unwound => Ok (h1, root, Unwound)
        | Done (a, d, l, r) =>
          '(h2, l', o) <- h_for_each_mut g fuel' h1 l s;;
          match o with
          | Unwound => Ok (cls h2 a d l' r, Some a, Unwound)
          | Done s1 =>
            let '(s2, v') := g s1 (pk d) (pv d) in
            let d' := set_val d v' in
            '(h3, r', o') <- h_for_each_mut g fuel' h2 r s2;;
            Ok (cls h3 a d' l' r', Some a, o')
          end
        end
      end
    end.

  (** avl.rs:719-757 [join_rt]: [left] and [opt_right] are moved in. *)
  Fixpoint h_join_rt (fuel : nat) (h : heap) (left : addr) (k : K) (v : V) (right : ptr)
    : res (heap * out ptr) :=
    match fuel with
    | O => Panic
    | S fuel' =>
      lefth <- h_height h (Some left);;
      hr <- h_height h right;;
      hr1 <- i8_add hr 1;;
      _ <- assert_ (hr1 <? lefth);;
      '(h1, r1) <- opn h left;;
      match r1 with
      | Unwound => unwind h1 [Some left; right]
      | Done (t2, d, l, c) =>
        hc <- h_height h1 c;;
        if hc <=? hr1 then
          hr' <- h_height h1 right;;
          let '(h2, t1) := alloc h1 (Nd (Pay k v hc hr') [c; right]) in
          h1' <- h_height h2 (Some t1);;
          ib <- is_bal (plh d) h1';;
          if ib then Ok (cls h2 t2 (set_rh d h1') l (Some t1), Done (Some t2))
          else
            '(h3, t1', o) <- h_rot_rt h2 (Some t1);;
            match o with
            | Unwound => unwind (cls h3 t2 (set_rh d h1') l t1') [Some t2]
            | Done shorter =>
              h1'' <- (if shorter then i8_sub h1' 1 else Ok h1');;
              '(h4, t2', o2) <- h_rot_lf (cls h3 t2 (set_rh d h1'') l t1') (Some t2);;
              match o2 with
              | Unwound => unwind h4 [t2']
              | Done _ => Ok (h4, Done t2')
              end
            end
        else
          ca <- unwrap c;;
          '(h2, o) <- h_join_rt fuel' h1 ca k v right;;
          match o with
          | Unwound => unwind (cls h2 t2 d l None) [Some t2]
          | Done t1 =>
            h1' <- h_height h2 t1;;
            ib <- is_bal (plh d) h1';;
            let h3 := cls h2 t2 (set_rh d h1') l t1 in
            if ib then Ok (h3, Done (Some t2))
            else
              '(h4, t2', o2) <- h_rot_lf h3 (Some t2);;
              match o2 with
              | Unwound => unwind h4 [t2']
              | Done _ => Ok (h4, Done t2')
              end
          end
      end
    end.

  (** avl.rs:759-798 [join_lf]. *)
  Fixpoint h_join_lf (fuel : nat) (h : heap) (left : ptr) (k : K) (v : V) (right : addr)
    : res (heap * out ptr) :=
    match fuel with
    | O => Panic
    | S fuel' =>
      righth <- h_height h (Some right);;
      hl <- h_height h left;;
      hl1 <- i8_add hl 1;;
      _ <- assert_ (hl1 <? righth);;
      '(h1, r1) <- opn h right;;
      match r1 with
      | Unwound => unwind h1 [Some right; left]
      | Done (t2, d, c, r) =>
        hc <- h_height h1 c;;
        if hc <=? hl1 then
          hl' <- h_height h1 left;;
          let '(h2, t1) := alloc h1 (Nd (Pay k v hl' hc) [left; c]) in
          h1' <- h_height h2 (Some t1);;
          ib <- is_bal h1' (prh d);;
          if ib then Ok (cls h2 t2 (set_lh d h1') (Some t1) r, Done (Some t2))
          else
            '(h3, t1', o) <- h_rot_lf h2 (Some t1);;
            match o with
            | Unwound => unwind (cls h3 t2 (set_lh d h1') t1' r) [Some t2]
            | Done shorter =>
              h1'' <- (if shorter then i8_sub h1' 1 else Ok h1');;
              '(h4, t2', o2) <- h_rot_rt (cls h3 t2 (set_lh d h1'') t1' r) (Some t2);;
              match o2 with
              | Unwound => unwind h4 [t2']
              | Done _ =>
                o3 <- peek h4 t2';;
                d2 <- unwrap o3;;
                ib2 <- is_bal (plh d2) (prh d2);;
                _ <- assert_ ib2;;
                Ok (h4, Done t2')
              end
            end
        else
          ca <- unwrap c;;
          '(h2, o) <- h_join_lf fuel' h1 left k v ca;;
          match o with
          | Unwound => unwind (cls h2 t2 d None r) [Some t2]
          | Done t1 =>
            h1' <- h_height h2 t1;;
            ib <- is_bal h1' (prh d);;
            let h3 := cls h2 t2 (set_lh d h1') t1 r in
            if ib then Ok (h3, Done (Some t2))
            else
              '(h4, t2', o2) <- h_rot_rt h3 (Some t2);;
              match o2 with
              | Unwound => unwind h4 [t2']
              | Done _ => Ok (h4, Done t2')
              end
          end
      end
    end.

  (** avl.rs:802-816 [join]. *)
  Definition h_join (h : heap) (left : ptr) (k : K) (v : V) (right : ptr) : res (heap * out ptr) :=
    hr <- h_height h right;;
    hl <- h_height h left;;
    b <- i8_sub hr hl;;
    if b <? -1 then la <- unwrap left;; h_join_rt depth h la k v right
    else if 1 <? b then ra <- unwrap right;; h_join_lf depth h left k v ra
    else let '(h1, a) := alloc h (Nd (Pay k v hl hr) [left; right]) in Ok (h1, Done (Some a)).

  (** avl.rs:818-833 [join2]. *)
  Definition h_join2 (h : heap) (left : ptr) (okv : option (K * V)) (right : ptr) : res (heap * out ptr) :=
    match okv with
    | Some (k, v) => h_join h left k v right
    | None =>
      match left, right with
      | None, _ => Ok (h, Done right)
      | _, None => Ok (h, Done left)
      | _, _ =>
        '(h1, right', o) <- h_rm_leftmost depth h right;;
        match o with
        | Unwound => unwind h1 [right'; left]
        | Done (kv, _) =>
          '(k, v) <- unwrap kv;;
          h_join h1 left k v right'
        end
      end
    end.

  (** [match Arc::try_unwrap(rc) { Ok(n) => n, Err(rc) => ( *rc).clone() }]
      (avl.rs:870-873, 959-962). *)
  Definition unshare (h : heap) (a : addr) : res (heap * out (pay * ptr * ptr)) :=
    match get h a with
    | Some (1%nat, Nd d [l; r]) => '(h1, _) <- take h a;; Ok (h1, Done (d, l, r))
    | Some (_, Nd d [l; r]) =>
      if bomb (length (clones h)) then unwind (log h d) [Some a]
      else
        h1 <- incs (log h d) [l; r];;
        h2 <- dec h1 a;;
        Ok (h2, Done (d, l, r))
    | _ => Panic
    end.

  (** avl.rs:946-979 [split]. *)
  Fixpoint h_split (fuel : nat) (h : heap) (root : ptr) (q : Q)
    : res (heap * out (ptr * option (K * V) * ptr)) :=
    match fuel with
    | O => Panic
    | S fuel' =>
      match root with
      | None => Ok (h, Done (None, None, None))
      | Some rc =>
        '(h1, r1) <- unshare h rc;;
        match r1 with
        | Unwound => Ok (h1, Unwound)
        | Done (d, l, r) =>
          match cmp q (bor (pk d)) with
          | Eq => Ok (h1, Done (l, Some (pk d, pv d), r))
          | Lt =>
            '(h2, o) <- h_split fuel' h1 l q;;
            match o with
            | Unwound => unwind h2 [r]
            | Done (l1, kv, r1) =>
              '(h3, o3) <- h_join h2 r1 (pk d) (pv d) r;;
              match o3 with
              | Unwound => unwind h3 [l1]
              | Done r1' => Ok (h3, Done (l1, kv, r1'))
              end
            end
          | Gt =>
            '(h2, o) <- h_split fuel' h1 r q;;
            match o with
            | Unwound => unwind h2 [l]
            | Done (l1, kv, r1) =>
              '(h3, o3) <- h_join h2 l (pk d) (pv d) l1;;
              match o3 with
              | Unwound => unwind h3 [r1]
              | Done l1' => Ok (h3, Done (l1', kv, r1))
              end
            end
          end
        end
      end
    end.

  (** avl.rs:835-885 [Merger::merge]. *)
  Fixpoint h_merge (keepl keepr : bool) (deconflict : K * V -> K * V -> option (K * V))
           (fuel : nat) (h : heap) (t1 t2 : ptr) : res (heap * out ptr) :=
    match fuel with
    | O => Panic
    | S fuel' =>
      match t1, t2 with
      | None, _ => if keepr then Ok (h, Done t2) else h1 <- drop h t2;; Ok (h1, Done None)
      | _, None => if keepl then Ok (h, Done t1) else h1 <- drop h t1;; Ok (h1, Done None)
      | Some a1, Some _ =>
        '(h1, r1) <- unshare h a1;;
        match r1 with
        | Unwound => unwind h1 [t2]
        | Done (d, l, r) =>
          '(h2, o2) <- h_split depth h1 t2 (bor (pk d));;
          match o2 with
          | Unwound => unwind h2 [l; r]
          | Done (t2_lt, t2_kv, t2_gt) =>
            '(h3, o3) <- h_merge keepl keepr deconflict fuel' h2 l t2_lt;;
            match o3 with
            | Unwound => unwind h3 [t2_gt; r]
            | Done lf =>
              '(h4, o4) <- h_merge keepl keepr deconflict fuel' h3 r t2_gt;;
              match o4 with
              | Unwound => unwind h4 [lf]
              | Done rt =>
                let kv := match t2_kv with
                          | None => if keepl then Some (pk d, pv d) else None
                          | Some kv2 => deconflict (pk d, pv d) kv2
                          end in
                h_join2 h4 lf kv rt
              end
            end
          end
        end
      end
    end.
  (** avl.rs:887-942. *)
  Definition h_intersect := h_merge false false (fun lhs _ => Some lhs) depth.
  Definition h_diff := h_merge true false (fun _ _ => None) depth.
  Definition h_sym_diff := h_merge true true (fun _ _ => None) depth.
  Definition h_union := h_merge true true (fun _ rhs => Some rhs) depth.

  (** avl.rs:697-717 [retain]. [root] is owned for the whole call, so its subtrees are
      shared during the recursive calls. The value is cloned before the predicate is called, the
      key only if it is kept; either clone may panic, and so may the predicate
      ([fbomb]). *)
  Definition clone_field (h : heap) (d : pay) : heap * bool :=
    (log h d, bomb (length (clones h))).
  Definition rd (h : heap) (a : addr) : res (pay * ptr * ptr) :=
    match get h a with
    | Some (_, Nd d [l; r]) => Ok (d, l, r)
    | _ => Panic
    end.
  Fixpoint h_retain {S} (f : S -> K -> V -> S * V * bool) (fbomb : S -> K -> V -> bool)
           (fuel : nat) (h : heap) (root : ptr) (s : S) : res (heap * out (ptr * nat * S)) :=
    match fuel with
    | O => Panic
    | Datatypes.S fuel' =>
      match root with
      | None => Ok (h, Done (None, O, s))
      | Some a =>
        '(_, l, _) <- rd h a;;
        h1 <- inc h l;;
        '(h2, o2) <- h_retain f fbomb fuel' h1 l s;;
        match o2 with
        | Unwound => unwind h2 [root]
        | Done (l', ll, s1) =>
          '(_, _, r) <- rd h2 a;;
          h3 <- inc h2 r;;
          '(h4, o4) <- h_retain f fbomb fuel' h3 r s1;;
          match o4 with
          | Unwound => unwind h4 [l'; root]
          | Done (r', rl, s2) =>
            '(d, _, _) <- rd h4 a;;
            let '(h5, b5) := clone_field h4 d in
            if b5 then unwind h5 [r'; l'; root]
            else if fbomb s2 (pk d) (pv d) then unwind h5 [r'; l'; root]
            else
              match f s2 (pk d) (pv d) with
              | (s3, v', true) =>
                let '(h6, b6) := clone_field h5 d in
                if b6 then unwind h6 [r'; l'; root]
                else
                  '(h7, o7) <- h_join h6 l' (pk d) v' r';;
                  h8 <- drop h7 root;;
                  match o7 with
                  | Unwound => Ok (h8, Unwound)
                  | Done t => Ok (h8, Done (t, (ll + rl + 1)%nat, s3))
                  end
              | (s3, _, false) =>
                '(h7, o7) <- h_join2 h5 l' None r';;
                h8 <- drop h7 root;;
                match o7 with
                | Unwound => Ok (h8, Unwound)
                | Done t => Ok (h8, Done (t, (ll + rl)%nat, s3))
                end
              end
          end
        end
      end
    end.

  (** ** [AvlMap] *)

  (** Everything that only reads follows the pointers and sees a tree. *)
  Fixpoint h_tree (fuel : nat) (h : heap) (p : ptr) : res (tree K V) :=
    match fuel with
    | O => Panic
    | S fuel' =>
      match p with
      | None => Ok Leaf
      | Some a =>
        match get h a with
        | Some (_, Nd d [l; r]) =>
          tl <- h_tree fuel' h l;;
          tr <- h_tree fuel' h r;;
          Ok (Node (pk d) (pv d) (plh d) (prh d) tl tr)
        | _ => Panic
        end
      end
    end.
  Definition hm_read (h : heap) (m : hmap) : res (avl_map K V) :=
    t <- h_tree depth h (hm_root m);; Ok (AvlMap (hm_len m) t).
  (** avl.rs:321-325 [len]. *)
  Definition h_len (h : heap) (p : ptr) : res nat := t <- h_tree depth h p;; Ok (t_len t).

  (** avl.rs:1371-1373 [new]; :230 [derive(Clone)]; drop. *)
  Definition hm_new : hmap := HMap 0 None.
  Definition hm_clone (h : heap) (m : hmap) : res (heap * hmap) :=
    h1 <- inc h (hm_root m);; Ok (h1, m).
  Definition hm_drop (h : heap) (m : hmap) : res heap := drop h (hm_root m).
  (** avl.rs:1007-1010 [clear]. *)
  Definition hm_clear (h : heap) (m : hmap) : res (heap * hmap) :=
    h1 <- drop h (hm_root m);; Ok (h1, hm_new).

  (** avl.rs:1145-1153 [insert]. *)
  Definition hm_insert (h : heap) (m : hmap) (k : K) (v : V) : res (heap * hmap * out (option V)) :=
    '(h1, p, o) <- h_ins depth h (hm_root m) k v;;
    match o with
    | Unwound => Ok (h1, HMap (hm_len m) p, Unwound)
    | Done (ret, _) =>
      Ok (h1, HMap (hm_len m + match ret with None => 1 | Some _ => 0 end)%nat p, Done ret)
    end.

  Definition hm_shrink (m : hmap) (x : heap * ptr * out (option (K * V) * bool))
    : res (heap * hmap * out (option (K * V))) :=
    let '(h1, p, o) := x in
    match o with
    | Unwound => Ok (h1, HMap (hm_len m) p, Unwound)
    | Done (None, _) => Ok (h1, HMap (hm_len m) p, Done None)
    | Done (Some e, _) => n <- usize_sub (hm_len m) 1;; Ok (h1, HMap n p, Done (Some e))
    end.
  (** avl.rs:1732-1742 [remove_entry]; [remove] (:1711-1718) drops the key. *)
  Definition hm_remove_entry (h : heap) (m : hmap) (q : Q) : res (heap * hmap * out (option (K * V))) :=
    x <- h_rm depth h (hm_root m) q;; hm_shrink m x.
  (** avl.rs:1503-1511 [pop_first], :1523-1531 [pop_last]. *)
  Definition hm_pop_first (h : heap) (m : hmap) : res (heap * hmap * out (option (K * V))) :=
    x <- h_rm_leftmost depth h (hm_root m);; hm_shrink m x.
  Definition hm_pop_last (h : heap) (m : hmap) : res (heap * hmap * out (option (K * V))) :=
    x <- h_rm_rightmost depth h (hm_root m);; hm_shrink m x.

  (** avl.rs:1116-1133 [get_mut]. *)
  Definition hm_get_mut (h : heap) (m : hmap) (q : Q) (w : V -> V) : res (heap * hmap * out (option V)) :=
    '(h1, p, o) <- h_get_mut depth h (hm_root m) q w;; Ok (h1, HMap (hm_len m) p, o).
  (** avl.rs:1885-1893 [for_each_mut]. *)
  Definition hm_for_each_mut {S} (g : S -> K -> V -> S * V) (h : heap) (m : hmap) (s : S)
    : res (heap * hmap * out S) :=
    '(h1, p, o) <- h_for_each_mut g depth h (hm_root m) s;; Ok (h1, HMap (hm_len m) p, o).

  (** avl.rs:998-1006 [append]. When it unwinds both roots have been taken out and the
      lengths have not been set. *)
  Definition hm_append (h : heap) (m1 m2 : hmap) : res (heap * hmap * hmap * out unit) :=
    '(h1, o) <- h_union h (hm_root m1) (hm_root m2);;
    match o with
    | Unwound => Ok (h1, HMap (hm_len m1) None, HMap (hm_len m2) None, Unwound)
    | Done p => n <- h_len h1 p;; Ok (h1, HMap n p, HMap 0 None, Done tt)
    end.

  (** avl.rs:1376-1384 [new_diff], :1399-1407 [new_intersect], :1459-1467 [new_sym_diff],
      :1483-1491 [new_union]: the arguments are moved in. *)
  Definition hm_of_root (x : res (heap * out ptr)) : res (heap * out hmap) :=
    '(h1, o) <- x;;
    match o with
    | Unwound => Ok (h1, Unwound)
    | Done p => n <- h_len h1 p;; Ok (h1, Done (HMap n p))
    end.
  Definition hm_new_diff (h : heap) (m1 m2 : hmap) := hm_of_root (h_diff h (hm_root m1) (hm_root m2)).
  Definition hm_new_intersect (h : heap) (m1 m2 : hmap) := hm_of_root (h_intersect h (hm_root m1) (hm_root m2)).
  Definition hm_new_sym_diff (h : heap) (m1 m2 : hmap) := hm_of_root (h_sym_diff h (hm_root m1) (hm_root m2)).
  Definition hm_new_union (h : heap) (m1 m2 : hmap) := hm_of_root (h_union h (hm_root m1) (hm_root m2)).

  (** avl.rs:1759-1768 [retain]: when it unwinds the root has been taken out and the length
      has not been set. *)
  Definition hm_retain {S} (f : S -> K -> V -> S * V * bool) (fbomb : S -> K -> V -> bool)
             (h : heap) (m : hmap) (s : S) : res (heap * hmap * out S) :=
    '(h1, o) <- h_retain f fbomb depth h (hm_root m) s;;
    match o with
    | Unwound => Ok (h1, HMap (hm_len m) None, Unwound)
    | Done (p, n, s') => Ok (h1, HMap n p, Done s')
    end.

  (** avl.rs:1784-1806 [split_off]. If [split] unwinds the root has been taken out; if [ins]
      does, [rhs] is dropped and [self] is the left part. *)
  Definition hm_split_off (h : heap) (m : hmap) (q : Q) : res (heap * hmap * out hmap) :=
    '(h1, o) <- h_split depth h (hm_root m) q;;
    match o with
    | Unwound => Ok (h1, HMap (hm_len m) None, Unwound)
    | Done (lhs, kv, rhs) =>
      len_lhs <- h_len h1 lhs;;
      len_rhs <- usize_sub (hm_len m) len_lhs;;
      match kv with
      | None => Ok (h1, HMap len_lhs lhs, Done (HMap len_rhs rhs))
      | Some (k, v) =>
        '(h2, rhs', o2) <- h_ins depth h1 rhs k v;;
        match o2 with
        | Unwound => h3 <- drop h2 rhs';; Ok (h3, HMap len_lhs lhs, Unwound)
        | Done _ => Ok (h2, HMap len_lhs lhs, Done (HMap len_rhs rhs'))
        end
      end
    end.
End AvlHeap.
