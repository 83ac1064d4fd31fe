(** Programs that catch the panics of comparisons: sequences of calls on one map, each under [std::panic::catch_unwind]. *)
From Coq Require Import List PeanoNat.
From Verif Require Import Base Spec Ask AskSpec AskAnySpec AvlModel AvlAskModel BTreeModel BTreeAskModel FixedModel FixedAskModel.
Import ListNotations.
Local Open Scope nat_scope.

(** The calls, and what a caller sees: the result ([None] for [extend]), or a panic that was caught. *)
Inductive call (K V Q : Type) : Type :=
| CInsert (k : K) (v : V)
| CRemove (q : Q)
| CGet (q : Q)
| CGetMut (q : Q) (w : V -> V)
| CExtend (ps : list (K * V)).
Arguments CInsert {K V Q} k v.
Arguments CRemove {K V Q} q.
Arguments CGet {K V Q} q.
Arguments CGetMut {K V Q} q w.
Arguments CExtend {K V Q} ps.
Inductive outcome (V : Type) : Type :=
| Gave (r : option V)
| Caught.
Arguments Gave {V} r.
Arguments Caught {V}.

(** ** The model: [M] is one of the three maps. *)
Record map_calls (K V Q M : Type) : Type := MapCalls {
  mc_insert : M -> K -> V -> nat -> trial M (option V);
  mc_remove : M -> Q -> nat -> trial M (option V);
  mc_get : M -> Q -> nat -> trial unit (option V);
  mc_get_mut : M -> Q -> (V -> V) -> nat -> trial M (option V);
  mc_extend : M -> list (K * V) -> nat -> trial M unit }.
Arguments MapCalls {K V Q M}.
Arguments mc_insert {K V Q M}.
Arguments mc_remove {K V Q M}.
Arguments mc_get {K V Q M}.
Arguments mc_get_mut {K V Q M}.
Arguments mc_extend {K V Q M}.
Definition avl_calls {K V Q} (bor : K -> Q) ask : map_calls K V Q (avl_map K V) :=
  MapCalls (a_insert_t bor ask) (a_remove_t bor ask) (a_get_t bor ask) (a_get_mut_t bor ask) (a_extend_t bor ask).
Definition btree_calls {K V Q} (bor : K -> Q) ask (N : nat) : map_calls K V Q (bt_map K V) :=
  MapCalls (b_insert_t bor ask N) (b_remove_t bor ask N) (b_get_t bor ask) (b_get_mut_t bor ask) (b_extend_t bor ask N).
Definition fixed_calls {K V Q} (bor : K -> Q) ask (small_key : bool) : map_calls K V Q (f_map K V) :=
  MapCalls (f_insert_t bor ask small_key) (f_remove_t bor ask small_key) (f_get_t bor ask small_key) (f_get_mut_t bor ask small_key)
    (f_extend_t bor ask small_key).

Section Run.
  Context {K V Q M : Type} (mc : map_calls K V Q M).
  Definition one (m : M) (c : call K V Q) (n : nat) : trial M (option V) :=
    match c with
    | CInsert k v => mc_insert mc m k v n
    | CRemove q => mc_remove mc m q n
    | CGet q => after (mc_get mc m q n) (fun _ => m) (fun _ r n => Returned m r n)
    | CGetMut q w => mc_get_mut mc m q w n
    | CExtend ps => after (mc_extend mc m ps n) (fun m' => m') (fun m' _ n => Returned m' None n)
    end.
  (** The map is used again after a panic was caught. [None]: the library itself panicked, or did something undefined. *)
  Fixpoint run (m : M) (cs : list (call K V Q)) (n : nat) : option (M * list (outcome V) * nat) :=
    match cs with
    | [] => Some (m, [], n)
    | c :: cs' =>
      match one m c n with
      | Returned m' r n' => match run m' cs' n' with Some (m2, os, n2) => Some (m2, Gave r :: os, n2) | None => None end
      | Unwound m' n' => match run m' cs' n' with Some (m2, os, n2) => Some (m2, Caught :: os, n2) | None => None end
      | Fault => None
      end
    end.
End Run.

(** ** The spec *)
Section RunSpec.
  Context {K V Q : Type} (bor : K -> Q) (ask : nat -> Q -> Q -> option comparison).
  Notation entry := (K * V)%type.
  (** [ok n n' c o l l']: the call [c] on a map with the entries [l], made when [n] comparisons had been made and over when
      [n'] had, may have the outcome [o] and leave the entries [l']. *)
  Fixpoint allowed (ok : nat -> nat -> call K V Q -> outcome V -> list entry -> list entry -> Prop)
    (n : nat) (cs : list (call K V Q)) (os : list (outcome V)) (l l' : list entry) (n' : nat) : Prop :=
    match cs, os with
    | [], [] => l' = l /\ n' = n
    | c :: cs', o :: os' => exists n1 l1, n <= n1 /\ (o = Caught -> panicked ask n1) /\ ok n n1 c o l l1 /\ allowed ok n1 cs' os' l1 l' n'
    | _, _ => False
    end.
  (** With any answers. *)
  Definition may (n n' : nat) (c : call K V Q) (o : outcome V) (l l' : list entry) : Prop :=
    match c, o with
    | CInsert k v, Gave r => may_insert bor (said bor ask n n') k v l l' r
    | CRemove q, Gave r => may_remove_val (said bor ask n n') q l l' r
    | CGet q, Gave r => l' = l /\ may_get (said bor ask n n') q l r
    | CGetMut q w, Gave r => may_get_mut (said bor ask n n') q w l l' r
    | CExtend ps, Gave r => r = None /\ may_extend bor (said bor ask n n') ps l l'
    | CExtend ps, Caught => exists ps1 p ps2, ps = ps1 ++ p :: ps2 /\ may_extend bor (said bor ask n n') ps1 l l'
    | _, Caught => l' = l
    end.
  (** With the answers of the order [cmp]. *)
  Definition should (cmp : Q -> Q -> comparison) (n n' : nat) (c : call K V Q) (o : outcome V) (l l' : list entry) : Prop :=
    match c, o with
    | CInsert k v, Gave r => r = s_get bor cmp (bor k) l /\ l' = s_insert bor cmp k v l
    | CRemove q, Gave r => r = s_get bor cmp q l /\ l' = s_remove bor cmp q l
    | CGet q, Gave r => r = s_get bor cmp q l /\ l' = l
    | CGetMut q w, Gave r => r = s_get bor cmp q l /\ l' = s_update bor cmp q w l
    | CExtend ps, Gave r => r = None /\ l' = s_extend bor cmp l ps
    | CExtend ps, Caught => exists ps1 p ps2, ps = ps1 ++ p :: ps2 /\ l' = s_extend bor cmp l ps1
    | _, Caught => l' = l
    end.
  (** How many entries a call may add. *)
  Definition adds (c : call K V Q) : nat := match c with CInsert _ _ => 1 | CExtend ps => length ps | _ => 0 end.
  Definition all_adds (cs : list (call K V Q)) : nat := list_sum (map adds cs).
End RunSpec.
