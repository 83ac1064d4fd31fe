(** What a client of [range_mut] sees if the user's [Ord] answers anything: as [MutSpec.s_muts], but the entries given need not be
    next to each other, so they are a list of indices in place of a window. *)
From Coq Require Import List PeanoNat.
From Verif Require Import Base Spec MapSpec MutSpec Heap HeapProofs BTreeHeapModel BTreeHeapSpec BAnyHeapSpec.
Import ListNotations.
Local Open Scope nat_scope.

Section Picks.
  Context {K V : Type}.
  (** The entries number [xs] of [l] are still to be given; those number [rs] were given. Each result is an entry and how many are
      left. Also the entries at the end. *)
  Fixpoint s_picks (cs : list (mcall V)) (l : list (K * V)) (xs rs : list nat) : list (option (K * V) * nat) * list (K * V) :=
    match cs with
    | [] => ([], l)
    | MNext :: cs' =>
      match xs with
      | x :: xs' => let '(outs, l') := s_picks cs' l xs' (rs ++ [x]) in ((nth_error l x, length xs') :: outs, l')
      | [] => let '(outs, l') := s_picks cs' l [] rs in ((None, 0) :: outs, l')
      end
    | MBack :: cs' =>
      match rev xs with
      | x :: ys => let '(outs, l') := s_picks cs' l (rev ys) (rs ++ [x]) in ((nth_error l x, length ys) :: outs, l')
      | [] => let '(outs, l') := s_picks cs' l [] rs in ((None, 0) :: outs, l')
      end
    | MWrite j w :: cs' =>
      match nth_error rs j with
      | Some x => let '(outs, l') := s_picks cs' (upd_nth x w l) xs rs in ((nth_error l x, length xs) :: outs, l')
      | None => let '(outs, l') := s_picks cs' l xs rs in ((None, length xs) :: outs, l')
      end
    end.

  (** The map [m] in [h'] shows [l], and the pointers [O] of other maps stand for what they did in [h]. *)
  Definition still (N : nat) (O : list addr) (h h' : heap (list (K * V))) (m : hbmap) (l : list (K * V)) : Prop :=
    sound h' (olist (hb_root m) ++ O) /\ frame O h h' /\ hbany N h' m l.
  (** After a client that makes the calls [cs], of which [length outs] returned: those gave the right results, the map has the
      values written, the pointers [O] of other maps stand for what they did. Calls fail to return only after a panic of the
      user's [clone]. *)
  Definition picks_ok (N : nat) (bomb : nat -> bool) (O : list addr) (h : heap (list (K * V))) (cs : list (mcall V)) (l : list (K * V)) (xs : list nat)
    (d : nat) (h' : heap (list (K * V))) (m : hbmap) (outs : list (option (K * V) * (nat * nat))) (b : bool) : Prop :=
    sound h' (olist (hb_root m) ++ O) /\ frame O h h'
    /\ hbany N h' m (snd (s_picks (firstn (length outs) cs) l xs []))
    /\ Forall2 (mut_out d) outs (fst (s_picks (firstn (length outs) cs) l xs []))
    /\ if b then length outs = length cs else exists n, bomb n = true.
End Picks.
