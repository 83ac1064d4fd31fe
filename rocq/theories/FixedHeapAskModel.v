(** [/repo/src/btree/core.rs] and [fixed.rs] with the sharing of nodes (as in FixedHeapModel.v) and with comparisons that may
    panic or change their answers (as in FixedAskModel.v): the functions that compare keys. They take and return the number
    of comparisons made since the program started. A call ends with [Unwound] if a comparison or a [clone] panics. *)
From Coq Require Import List PeanoNat Bool.
From Verif Require Import Base Spec MapSpec Vec FixedModel FixedIterModel FixedSpec Ask FixedAskModel Heap BTreeHeapModel FixedHeapModel FixedHeapSpec.
Import ListNotations.
Local Open Scope nat_scope.

Section FixedHeapAsk.
  Context {K V Q : Type} (bor : K -> Q) (ask : nat -> Q -> Q -> option comparison) (small_key : bool).
  Variable bomb : nat -> bool.
  Notation heap := (Heap.heap (elems K V * option (kids addr))).
  Notation search_t := (search_t bor ask small_key).
  Notation fopn := (fopn bomb).

  (** core.rs:379-389 [Node::get_mut]. The search is made in the node that [make_mut] gave, through a borrow; when it
      panics the node is as it was. *)
  Fixpoint fh_get_mut_t (fuel : nat) (h : heap) (a : addr) (q : Q) (w : V -> V) (n : nat)
    : res (heap * addr * nat * out (option V)) :=
    match fuel with
    | O => Panic
    | S fuel' =>
      '(h1, r) <- fopn h a;;
      match r with
      | Unwound => Ok (h1, a, n, Unwound)
      | Done (a', e, d) =>
        match search_t q e n with
        | Fault => Panic
        | Ask.Unwound _ n1 => h2 <- fcls h1 a' e d;; Ok (h2, a', n1, Unwound)
        | Returned _ (inl i) n1 =>
          vs <- live (el_vals e) (el_len e);;
          v <- unwrap (nth_error vs i);;
          h2 <- fcls h1 a' (Elems (el_keys e) (set_at i (Some (w v)) (el_vals e)) (el_len e)) d;;
          Ok (h2, a', n1, Done (Some v))
        | Returned _ (inr i) n1 =>
          c <- fchild d i;;
          match c with
          | Some c =>
            '(h2, c', n2, o) <- fh_get_mut_t fuel' h1 c q w n1;;
            h3 <- fcls h2 a' e (fput d i c');;
            Ok (h3, a', n2, o)
          | None => h2 <- fcls h1 a' e d;; Ok (h2, a', n1, Done None)
          end
        end
      end
    end.

  (** core.rs:391-424 [Node::insert]. *)
  Fixpoint fh_insert_t (fuel : nat) (h : heap) (a : addr) (kv : K * V) (n : nat)
    : res (heap * addr * nat * out (fh_res K V)) :=
    match fuel with
    | O => Panic
    | S fuel' =>
      '(h1, r) <- fopn h a;;
      match r with
      | Unwound => Ok (h1, a, n, Unwound)
      | Done (a', e, d) =>
        match search_t (bor (fst kv)) e n with
        | Fault => Panic
        | Ask.Unwound _ n1 => h2 <- fcls h1 a' e d;; Ok (h2, a', n1, Unwound)
        | Returned _ (inl ub) n1 =>
          '(old, e') <- el_replace e ub kv;;
          h2 <- fcls h1 a' e' d;;
          Ok (h2, a', n1, Done (FHReplaced (fst old) (snd old)))
        | Returned _ (inr ub) n1 =>
          c <- fchild d ub;;
          '(h2, d1, n2, r) <- match c with
                              | Some c => '(h2, c', n2, o) <- fh_insert_t fuel' h1 c kv n1;; Ok (h2, fput d ub c', n2, o)
                              | None => Ok (h1, d, n1, Done (FHSplit None kv))
                              end;;
          match r with
          | Done (FHSplit kid kv1) =>
            if el_len e <? MAX_OCCUPANCY then
              '(e', d') <- cell_absorb e d1 ub kid kv1;;
              h3 <- fcls h2 a' e' d';;
              Ok (h3, a', n2, Done FHAbsorbed)
            else
              '((he, hd), (le, ld), div) <- cell_split e d1 ub kid kv1;;
              h3 <- fcls h2 a' he hd;;
              '(h4, b) <- f_alloc h3 le ld;;
              Ok (h4, a', n2, Done (FHSplit (Some b) div))
          | _ => h3 <- fcls h2 a' e d1;; Ok (h3, a', n2, r)
          end
        end
      end
    end.

  (** A part that asks nothing. *)
  Definition asks_none {S A} (n : nat) (x : res (S * A)) : res (S * nat * A) := '(s, o) <- x;; Ok (s, n, o).

  (** core.rs:695-733 [Node::remove]. *)
  Fixpoint fh_remove_node_t (fuel : nat) (h : heap) (a : addr) (q : Q) (n : nat)
    : res (heap * addr * nat * out (option ((K * V) * bool))) :=
    match fuel with
    | O => Panic
    | S fuel' =>
      '(h1, r) <- fopn h a;;
      match r with
      | Unwound => Ok (h1, a, n, Unwound)
      | Done (a', e, d) =>
        match search_t q e n with
        | Fault => Panic
        | Ask.Unwound _ n1 => h2 <- fcls h1 a' e d;; Ok (h2, a', n1, Unwound)
        | Returned _ (inl i) n1 =>
          if is_some d then
            c <- fchild d i;;
            c <- unwrap c;;
            '(h2, c', o) <- fh_pop_greatest bomb fuel' h1 c;;
            let d1 := fput d i c' in
            match o with
            | Unwound => h3 <- fcls h2 a' e d1;; Ok (h3, a', n1, Unwound)
            | Done (kv, under) =>
              '(old, e1) <- el_replace e i kv;;
              if (under : bool) then asks_none n1 (fh_rebal_cls bomb h2 a' e1 d1 i (fun u => Some (old, u)))
              else h3 <- fcls h2 a' e1 d1;; Ok (h3, a', n1, Done (Some (old, false)))
            end
          else
            '(kv, e') <- el_remove e i;;
            h2 <- fcls h1 a' e' d;;
            Ok (h2, a', n1, Done (Some (kv, el_len e' <? MIN_OCCUPANCY)))
        | Returned _ (inr i) n1 =>
          c <- fchild d i;;
          match c with
          | None => h2 <- fcls h1 a' e d;; Ok (h2, a', n1, Done None)
          | Some c =>
            '(h2, c', n2, o) <- fh_remove_node_t fuel' h1 c q n1;;
            let d1 := fput d i c' in
            match o with
            | Done (Some (kv, true)) => asks_none n2 (fh_rebal_cls bomb h2 a' e d1 i (fun u => Some (kv, u)))
            | _ => h3 <- fcls h2 a' e d1;; Ok (h3, a', n2, o)
            end
          end
        end
      end
    end.

  (** ** [BTreeMap] *)

  (** fixed.rs:22-29 [get]: reads the tree. *)
  Definition fh_get_t (h : heap) (m : fhmap) (q : Q) (n : nat) : res (nat * out (option V)) :=
    b <- fh_view h m;;
    match f_get_t bor ask small_key b q n with
    | Fault => Panic
    | Ask.Unwound _ n1 => Ok (n1, Unwound)
    | Returned _ r n1 => Ok (n1, Done r)
    end.

  (** fixed.rs:31-40 [get_mut]. *)
  Definition fh_get_mut_map_t (h : heap) (m : fhmap) (q : Q) (w : V -> V) (n : nat)
    : res (heap * fhmap * nat * out (option V)) :=
    match fh_root m with
    | None => Ok (h, m, n, Done None)
    | Some a => '(h1, a1, n1, o) <- fh_get_mut_t (fdepth h) h a q w n;; Ok (h1, FH (Some a1) (fh_len m), n1, o)
    end.

  (** fixed.rs:42-73 [insert]. *)
  Definition fh_insert_map_t (h : heap) (m : fhmap) (k : K) (v : V) (n : nat)
    : res (heap * fhmap * nat * out (option V)) :=
    match fh_root m with
    | Some a =>
      '(h1, a1, n1, o) <- fh_insert_t (fdepth h) h a (k, v) n;;
      match o with
      | Unwound => Ok (h1, FH (Some a1) (fh_len m), n1, Unwound)
      | Done FHAbsorbed => Ok (h1, FH (Some a1) (fh_len m + 1), n1, Done None)
      | Done (FHReplaced _ v0) => Ok (h1, FH (Some a1) (fh_len m), n1, Done (Some v0))
      | Done (FHSplit lt kv) =>
        l <- unwrap lt;;
        e <- el_push el_new kv;;
        d <- kd_push kd_new l;;
        d <- kd_push d a1;;
        '(h2, r) <- f_alloc h1 e (Some d);;
        Ok (h2, FH (Some r) (fh_len m + 1), n1, Done None)
      end
    | None =>
      e <- el_push el_new (k, v);;
      '(h1, r) <- f_alloc h e None;;
      Ok (h1, FH (Some r) 1, n, Done None)
    end.

  (** fixed.rs:102-119 [rm_and_rebal], :121-133 [remove]. *)
  Definition fh_remove_entry_t (h : heap) (m : fhmap) (q : Q) (n : nat)
    : res (heap * fhmap * nat * out (option (K * V))) :=
    match fh_root m with
    | None => Ok (h, m, n, Done None)
    | Some a =>
      '(h1, a1, n1, o) <- fh_remove_node_t (fdepth h) h a q n;;
      match o with
      | Unwound => Ok (h1, FH (Some a1) (fh_len m), n1, Unwound)
      | Done None => Ok (h1, FH (Some a1) (fh_len m), n1, Done None)
      | Done (Some (old, under)) =>
        len <- usize_sub (fh_len m) 1;;
        e1 <- fpeek h1 a1;;
        if under && (el_len e1 =? 0) then
          '(h2, x) <- take h1 a1;;
          '(root, d') <- match snd (nd_data x) with
                         | Some b => '(c, b') <- kd_pop b;; Ok (Some c, Some b')
                         | None => Ok (None, None)
                         end;;
          h3 <- fcls h2 a1 (fst (nd_data x)) d';;
          h4 <- drop h3 (Some a1);;
          Ok (h4, FH root len, n1, Done (Some old))
        else Ok (h1, FH (Some a1) len, n1, Done (Some old))
      end
    end.
  Definition fh_remove_map_t (h : heap) (m : fhmap) (q : Q) (n : nat) : res (heap * fhmap * nat * out (option V)) :=
    '(h1, m1, n1, o) <- fh_remove_entry_t h m q n;;
    Ok (h1, m1, n1, match o with Done e => Done (option_map snd e) | Unwound => Unwound end).

  (** fixed.rs:162-166 [extend] by a list: stops where it unwinds. *)
  Fixpoint fh_extend_t (h : heap) (m : fhmap) (ps : list (K * V)) (n : nat) : res (heap * fhmap * nat * out unit) :=
    match ps with
    | [] => Ok (h, m, n, Done tt)
    | (k, v) :: ps' =>
      '(h1, m1, n1, o) <- fh_insert_map_t h m k v n;;
      match o with
      | Unwound => Ok (h1, m1, n1, Unwound)
      | Done _ => fh_extend_t h1 m1 ps' n1
      end
    end.
  (** fixed.rs:174-178 [from_iter]: when it unwinds the new map is dropped. *)
  Definition fh_from_iter_t (h : heap) (ps : list (K * V)) (n : nat) : res (heap * nat * out fhmap) :=
    '(h1, m, n1, o) <- fh_extend_t h fh_new ps n;;
    match o with
    | Unwound => h2 <- fh_drop h1 m;; Ok (h2, n1, Unwound)
    | Done _ => Ok (h1, n1, Done m)
    end.

  (** ** The client of FixedHeapSpec.v: one call, made after [n] comparisons. The calls that compare no keys are those of
      [fh_step] (the self-check is not used here). *)
  Notation fh_op := (fh_op K V Q).
  Notation fh_obs := (fh_obs K V).
  Notation fh_world := (@fh_world K V).
  Definition fh_step_t (w0 : fh_world) (n : nat) (o : fh_op) : res (fh_world * nat * out fh_obs) :=
    let '(h, ms) := w0 in
    let on1 i (f : fhmap -> res (fh_world * nat * out fh_obs)) :=
      match nth_error ms i with Some m => f m | None => Ok ((h, ms), n, Done (FhOut FrUnit)) end in
    let write {A} i (f : fhmap -> res (heap * fhmap * nat * out A)) (g : A -> f_out V) :=
      on1 i (fun m => '(h1, m1, n1, x) <- f m;;
        Ok ((h1, set_nth i m1 ms), n1, match x with Done a => Done (FhOut (g a)) | Unwound => Unwound end)) in
    match o with
    | FhFromIter ps =>
      '(h1, n1, y) <- fh_from_iter_t h ps n;;
      match y with
      | Done m => Ok ((h1, ms ++ [m]), n1, Done (FhOut FrUnit))
      | Unwound => Ok ((h1, ms), n1, Unwound)
      end
    | FhDo i (FoInsert k v) => write i (fun m => fh_insert_map_t h m k v n) FrVal
    | FhDo i (FoGetMut q w) => write i (fun m => fh_get_mut_map_t h m q w n) FrVal
    | FhDo i (FoExtend ps) => write i (fun m => fh_extend_t h m ps n) (fun _ => FrUnit)
    | FhDo i (FoRemove q) => on1 i (fun m =>
        '(h1, m1, n1, x) <- fh_remove_map_t h m q n;;
        match x with
        | Done v => Ok ((h1, set_nth i m1 ms), n1, Done (FhOut (FrVal v)))
        | Unwound => '(h2, m2) <- fh_clear h1 m1;; Ok ((h2, set_nth i m2 ms), n1, Unwound)
        end)
    | FhDo i (FoGet q) => on1 i (fun m =>
        '(n1, x) <- fh_get_t h m q n;;
        Ok ((h, ms), n1, match x with Done r => Done (FhOut (FrVal r)) | Unwound => Unwound end))
    | _ => asks_none n (fh_step bor (fun _ _ => Eq) small_key bomb w0 o)
    end.
  Fixpoint fh_run_t (w : fh_world) (n : nat) (os : list fh_op) : res (fh_world * nat * list (out fh_obs)) :=
    match os with
    | [] => Ok (w, n, [])
    | o :: os' =>
      '(w1, n1, r) <- fh_step_t w n o;;
      '(w2, n2, rs) <- fh_run_t w1 n1 os';;
      Ok (w2, n2, r :: rs)
    end.
End FixedHeapAsk.
