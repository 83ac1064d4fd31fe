From Coq Require Import List PeanoNat ZArith Lia.
From Verif Require Import Base Spec MapSpec SpecFacts Ask AskSpec AskAnySpec AskAnyProofs AskRun AvlModel AvlAskModel BTreeModel BTreeAskModel FixedModel FixedAskModel FixedSpec
  AnyOrdSpec AnyOrdShows SmallFacts AvlShows BTreeShows FixedShows AskShows AvlAskAnyProofs BTreeAskAnyProofs FixedAskAnyProofs.
Import ListNotations.
Local Open Scope nat_scope.

Section Generic.
  Context {K V Q M : Type} (bor : K -> Q) (ask : nat -> Q -> Q -> option comparison) (mc : map_calls K V Q M).
  Notation entry := (K * V)%type.
  Context (sh : M -> list entry -> Prop) (room : nat -> Prop).
  Context (Hroom : forall a b, a <= b -> room b -> room a).

  (** One call. *)
  Definition fine (ok : nat -> nat -> call K V Q -> outcome V -> list entry -> list entry -> Prop) : Prop :=
    forall m l c n0, sh m l -> room (length l + adds c) ->
    match one mc m c n0 with
    | Returned m' r n => n0 <= n /\ exists l', sh m' l' /\ ok n0 n c (Gave r) l l' /\ length l' <= length l + adds c
    | Unwound m' n => n0 < n /\ panicked ask n /\ exists l', sh m' l' /\ ok n0 n c Caught l l' /\ length l' <= length l + adds c
    | Fault => False
    end.
  Lemma run_fine ok : fine ok -> forall cs m l n0, sh m l -> room (length l + all_adds cs) ->
    exists m' os n l', run mc m cs n0 = Some (m', os, n) /\ sh m' l' /\ allowed ask ok n0 cs os l l' n.
  Proof.
    intros F. induction cs as [|c cs IH]; intros m l n0 H R; cbn [run].
    - exists m, [], n0, l. cbn. auto.
    - unfold all_adds in *. cbn [map list_sum fold_right] in *. fold (list_sum (map (@adds K V Q) cs)) in *.
      specialize (F m l c n0 H ltac:(eapply Hroom; [|exact R]; lia)). destruct (one mc m c n0) as [m1 r n1|m1 n1|]; [| |contradiction].
      + destruct F as (L & l1 & H1 & O & Le). destruct (IH m1 l1 n1 H1) as (m' & os & n & l' & -> & H' & A); [eapply Hroom; [|exact R]; lia|].
        exists m', (Gave r :: os), n, l'. split; auto. split; auto. cbn [allowed]. exists n1, l1. split; auto. split; [discriminate|auto].
      + destruct F as (L & P & l1 & H1 & O & Le). destruct (IH m1 l1 n1 H1) as (m' & os & n & l' & -> & H' & A); [eapply Hroom; [|exact R]; lia|].
        exists m', (Caught :: os), n, l'. split; auto. split; auto. cbn [allowed]. exists n1, l1. split; [lia|]. auto.
  Qed.

  (** [extend] is a loop. *)
  Context (E0 : forall m n, mc_extend mc m [] n = Returned m tt n).
  Context (E1 : forall m k v ps n, mc_extend mc m ((k, v) :: ps) n = after (mc_insert mc m k v n) (fun m' => m') (fun m' _ n => mc_extend mc m' ps n)).

  Section Any.
    Context (Hins : forall m l k v n0, sh m l -> room (length l + 1) ->
      copes ask n0 (mc_insert mc m k v n0) (fun m' r n => exists l', sh m' l' /\ may_insert bor (said bor ask n0 n) k v l l' r) (fun m' => m' = m)).
    Context (Hrem : forall m l q n0, sh m l -> room (length l) ->
      copes ask n0 (mc_remove mc m q n0) (fun m' r n => exists l', sh m' l' /\ may_remove_val (said bor ask n0 n) q l l' r) (fun m' => m' = m)).
    Context (Hget : forall m l q n0, sh m l -> copes ask n0 (mc_get mc m q n0) (fun _ r n => may_get (said bor ask n0 n) q l r) (fun _ => True)).
    Context (Hmut : forall m l q w n0, sh m l ->
      copes ask n0 (mc_get_mut mc m q w n0) (fun m' r n => exists l', sh m' l' /\ may_get_mut (said bor ask n0 n) q w l l' r) (fun m' => m' = m)).
    Lemma extend_any ps : forall m l n0, sh m l -> room (length l + length ps) ->
      match mc_extend mc m ps n0 with
      | Returned m' _ n => n0 <= n /\ exists l', sh m' l' /\ may_extend bor (said bor ask n0 n) ps l l' /\ length l' <= length l + length ps
      | Unwound m' n => n0 < n /\ panicked ask n /\ exists ps1 p ps2 l', ps = ps1 ++ p :: ps2 /\ sh m' l'
          /\ may_extend bor (said bor ask n0 n) ps1 l l' /\ length l' <= length l + length ps
      | Fault => False
      end.
    Proof.
      induction ps as [|[k v] ps IH]; intros m l n0 H R; [rewrite E0|rewrite E1]; cbn [length] in *.
      - split; auto. exists l. cbn. split; auto. split; auto. lia.
      - pose proof (Hins m l k v n0 H ltac:(eapply Hroom; [|exact R]; lia)) as T. destruct (mc_insert mc m k v n0) as [m1 r n1|m1 n1|]; cbn [after copes] in *; [| |contradiction].
        + destruct T as (L & l1 & H1 & I). pose proof (AskAnyProofs.len_insert _ _ _ _ _ _ _ I) as Li.
          assert (Li' : length l1 <= 1 + length l) by (destruct r; lia).
          specialize (IH m1 l1 n1 H1 ltac:(eapply Hroom; [|exact R]; lia)).
          destruct (mc_extend mc m1 ps n1) as [m2 [] n2|m2 n2|]; auto.
          * destruct IH as (L2 & l2 & H2 & X & Le). split; [lia|]. exists l2. split; auto. split; [|lia]. cbn [may_extend]. exists l1, r. split.
            -- eapply insert_mono; [|exact I]. intros ? ?. apply said_mono; lia.
            -- eapply extend_mono; [|exact X]. intros ? ?. apply said_mono; lia.
          * destruct IH as (L2 & P & ps1 & p & ps2 & l2 & -> & H2 & X & Le). split; [lia|]. split; auto. exists ((k, v) :: ps1), p, ps2, l2.
            split; auto. split; auto. split; [|lia]. cbn [may_extend]. exists l1, r. split.
            -- eapply insert_mono; [|exact I]. intros ? ?. apply said_mono; lia.
            -- eapply extend_mono; [|exact X]. intros ? ?. apply said_mono; lia.
        + destruct T as (L & P & ->). split; auto. split; auto. exists [], (k, v), ps, l. split; auto. split; auto. split; [reflexivity|lia].
    Qed.
    Lemma any_fine : fine (may bor ask).
    Proof.
      intros m l c n0 H R. destruct c as [k v|q|q|q w|ps]; cbn [one adds may] in *.
      - pose proof (Hins m l k v n0 H R) as T. destruct (mc_insert mc m k v n0) as [m1 r n1|m1 n1|]; cbn [copes] in T; auto.
        + destruct T as (L & l1 & H1 & I). split; auto. exists l1. split; auto. split; auto. rewrite (AskAnyProofs.len_insert _ _ _ _ _ _ _ I). destruct r; lia.
        + destruct T as (L & P & ->). split; auto. split; auto. exists l. split; auto. split; auto. lia.
      - rewrite Nat.add_0_r in R. pose proof (Hrem m l q n0 H R) as T. destruct (mc_remove mc m q n0) as [m1 r n1|m1 n1|]; cbn [copes] in T; auto.
        + destruct T as (L & l1 & H1 & I). split; auto. exists l1. split; auto. split; auto. destruct I as (o & I & _).
          rewrite (AskAnyProofs.len_remove _ _ _ _ _ I). lia.
        + destruct T as (L & P & ->). split; auto. split; auto. exists l. split; auto. split; auto. lia.
      - pose proof (Hget m l q n0 H) as T. destruct (mc_get mc m q n0) as [m1 r n1|m1 n1|]; cbn [copes after] in *; auto.
        + destruct T as (L & I). split; auto. exists l. split; auto. split; [auto|lia].
        + destruct T as (L & P & _). split; auto. split; auto. exists l. split; auto. split; auto. lia.
      - pose proof (Hmut m l q w n0 H) as T. destruct (mc_get_mut mc m q w n0) as [m1 r n1|m1 n1|]; cbn [copes after] in *; auto.
        + destruct T as (L & l1 & H1 & I). split; auto. exists l1. split; auto. split; auto. rewrite (AskAnyProofs.len_get_mut _ _ _ _ _ _ I). lia.
        + destruct T as (L & P & ->). split; auto. split; auto. exists l. split; auto. split; auto. lia.
      - pose proof (extend_any ps m l n0 H R) as T. destruct (mc_extend mc m ps n0) as [m1 [] n1|m1 n1|]; cbn [after]; auto.
        + destruct T as (L & l1 & H1 & I & Le). split; auto. exists l1. auto.
        + destruct T as (L & P & ps1 & p & ps2 & l1 & -> & H1 & I & Le). split; auto. split; auto. exists l1. split; auto. split; auto. exists ps1, p, ps2. auto.
    Qed.
  End Any.

  Section Lawful.
    Context (cmp : Q -> Q -> comparison).
    Context (Hins : forall m l k v n0, sh m l -> room (length l + 1) -> exists most,
      fares ask n0 most (mc_insert mc m k v n0) (fun m' r => r = s_get bor cmp (bor k) l /\ sh m' (s_insert bor cmp k v l)) (fun m' => m' = m)).
    Context (Hrem : forall m l q n0, sh m l -> room (length l) -> exists most,
      fares ask n0 most (mc_remove mc m q n0) (fun m' r => r = s_get bor cmp q l /\ sh m' (s_remove bor cmp q l)) (fun m' => m' = m)).
    Context (Hget : forall m l q n0, sh m l -> exists most, fares ask n0 most (mc_get mc m q n0) (fun _ r => r = s_get bor cmp q l) (fun _ => True)).
    Context (Hmut : forall m l q w n0, sh m l -> room (length l) -> exists most,
      fares ask n0 most (mc_get_mut mc m q w n0) (fun m' r => r = s_get bor cmp q l /\ sh m' (s_update bor cmp q w l)) (fun m' => m' = m)).
    Lemma len_s_update q w (l : list entry) : length (s_update bor cmp q w l) = length l.
    Proof. apply map_length. Qed.
    Lemma extend_lawful ps : forall m l n0, sh m l -> room (length l + length ps) ->
      match mc_extend mc m ps n0 with
      | Returned m' _ n => n0 <= n /\ sh m' (s_extend bor cmp l ps) /\ length (s_extend bor cmp l ps) <= length l + length ps
      | Unwound m' n => n0 < n /\ panicked ask n /\ exists ps1 p ps2, ps = ps1 ++ p :: ps2 /\ sh m' (s_extend bor cmp l ps1)
          /\ length (s_extend bor cmp l ps1) <= length l + length ps
      | Fault => False
      end.
    Proof.
      induction ps as [|[k v] ps IH]; intros m l n0 H R; [rewrite E0|rewrite E1]; cbn [length] in *.
      - split; auto. cbn. split; auto. lia.
      - destruct (Hins m l k v n0 H ltac:(eapply Hroom; [|exact R]; lia)) as (most & T). destruct (mc_insert mc m k v n0) as [m1 r n1|m1 n1|]; cbn [after fares] in *; [| |contradiction].
        + destruct T as (L & _ & H1). pose proof (SmallFacts.len_insert bor cmp k v l) as Li.
          specialize (IH m1 _ n1 H1 ltac:(eapply Hroom; [|exact R]; lia)).
          destruct (mc_extend mc m1 ps n1) as [m2 [] n2|m2 n2|]; auto.
          * destruct IH as (L2 & H2 & Le). split; [lia|]. split; auto. change (s_extend bor cmp l ((k, v) :: ps)) with (s_extend bor cmp (s_insert bor cmp k v l) ps). lia.
          * destruct IH as (L2 & P & ps1 & p & ps2 & -> & H2 & Le). split; [lia|]. split; auto. exists ((k, v) :: ps1), p, ps2.
            split; auto. split; auto. change (s_extend bor cmp l ((k, v) :: ps1)) with (s_extend bor cmp (s_insert bor cmp k v l) ps1). lia.
        + destruct T as (L & P & ->). split; [lia|]. split; auto. exists [], (k, v), ps. split; auto. split; auto. cbn. lia.
    Qed.
    Lemma lawful_fine : fine (should bor cmp).
    Proof.
      intros m l c n0 H R. destruct c as [k v|q|q|q w|ps]; cbn [one adds should] in *.
      - destruct (Hins m l k v n0 H R) as (most & T). destruct (mc_insert mc m k v n0) as [m1 r n1|m1 n1|]; cbn [fares] in T; auto.
        + destruct T as (L & I & H1). split; [lia|]. eexists. split; [exact H1|]. split; auto. pose proof (SmallFacts.len_insert bor cmp k v l). lia.
        + destruct T as (L & P & ->). split; [lia|]. split; auto. exists l. split; auto. split; auto. lia.
      - rewrite Nat.add_0_r in R. destruct (Hrem m l q n0 H R) as (most & T). destruct (mc_remove mc m q n0) as [m1 r n1|m1 n1|]; cbn [fares] in T; auto.
        + destruct T as (L & I & H1). split; [lia|]. eexists. split; [exact H1|]. split; auto. pose proof (AvlShows.len_remove bor cmp q l). lia.
        + destruct T as (L & P & ->). split; [lia|]. split; auto. exists l. split; auto. split; auto. lia.
      - destruct (Hget m l q n0 H) as (most & T). destruct (mc_get mc m q n0) as [m1 r n1|m1 n1|]; cbn [fares after] in *; auto.
        + destruct T as (L & I). split; [lia|]. exists l. split; auto. split; [auto|lia].
        + destruct T as (L & P & _). split; [lia|]. split; auto. exists l. split; auto. split; auto. lia.
      - rewrite Nat.add_0_r in R. destruct (Hmut m l q w n0 H R) as (most & T). destruct (mc_get_mut mc m q w n0) as [m1 r n1|m1 n1|]; cbn [fares after] in *; auto.
        + destruct T as (L & I & H1). split; [lia|]. eexists. split; [exact H1|]. split; auto. rewrite len_s_update. lia.
        + destruct T as (L & P & ->). split; [lia|]. split; auto. exists l. split; auto. split; auto. lia.
      - pose proof (extend_lawful ps m l n0 H R) as T. destruct (mc_extend mc m ps n0) as [m1 [] n1|m1 n1|]; cbn [after]; auto.
        + destruct T as (L & H1 & Le). split; auto. eexists. split; [exact H1|]. auto.
        + destruct T as (L & P & ps1 & p & ps2 & -> & H1 & Le). split; auto. split; auto. eexists. split; [exact H1|]. split; auto. exists ps1, p, ps2. auto.
    Qed.
  End Lawful.
End Generic.

(** ** The three maps *)
Section Maps.
  Context {K V Q : Type} (bor : K -> Q) (ask : nat -> Q -> Q -> option comparison).
  Notation entry := (K * V)%type.
  Definition room63 (n : nat) : Prop := (Z.of_nat n < 2 ^ 63)%Z.
  Lemma room63_down a b : a <= b -> room63 b -> room63 a.
  Proof. unfold room63. lia. Qed.
  Lemma room_small (l : list entry) : room63 (length l + 1) -> small l.
  Proof. unfold room63, small. lia. Qed.
  Definition anywhere (n : nat) : Prop := True.

  Lemma avl_fine : fine ask (avl_calls bor ask) (@a_any K V) room63 (may bor ask).
  Proof.
    apply any_fine; [exact room63_down|reflexivity|reflexivity|..].
    - intros. apply a_insert_copes; auto using room_small.
    - intros. apply a_remove_copes; auto.
    - intros. now apply a_get_copes.
    - intros. now apply a_get_mut_copes.
  Qed.
  Lemma btree_fine N (HN : 1 <= N) : fine ask (btree_calls bor ask N) (@b_any K V N) anywhere (may bor ask).
  Proof.
    apply any_fine; auto; unfold anywhere; auto; intros.
    - now apply b_insert_copes.
    - now apply b_remove_copes.
    - now apply (b_get_copes bor ask N HN).
    - now apply (b_get_mut_copes bor ask N HN).
  Qed.
  Lemma fixed_fine sk : fine ask (fixed_calls bor ask sk) (@f_any K V) anywhere (may bor ask).
  Proof.
    apply any_fine; auto; unfold anywhere; auto; intros.
    - now apply f_insert_copes.
    - now apply f_remove_copes.
    - now apply f_get_copes.
    - now apply f_get_mut_copes.
  Qed.
  Lemma avl_run_any cs (m : avl_map K V) l n0 : a_any m l -> (Z.of_nat (length l + all_adds cs) < 2 ^ 63)%Z ->
    exists m' os n l', run (avl_calls bor ask) m cs n0 = Some (m', os, n) /\ a_any m' l' /\ allowed ask (may bor ask) n0 cs os l l' n.
  Proof. intros H R. apply run_fine with (room := room63); [exact room63_down|apply avl_fine|exact H|exact R]. Qed.
  Lemma btree_run_any N (HN : 1 <= N) cs (m : bt_map K V) l n0 : b_any N m l ->
    exists m' os n l', run (btree_calls bor ask N) m cs n0 = Some (m', os, n) /\ b_any N m' l' /\ allowed ask (may bor ask) n0 cs os l l' n.
  Proof. intros H. apply run_fine with (room := anywhere); auto; unfold anywhere; auto. now apply btree_fine. Qed.
  Lemma fixed_run_any sk cs (m : f_map K V) l n0 : f_any m l ->
    exists m' os n l', run (fixed_calls bor ask sk) m cs n0 = Some (m', os, n) /\ f_any m' l' /\ allowed ask (may bor ask) n0 cs os l l' n.
  Proof. intros H. apply run_fine with (room := anywhere); auto; unfold anywhere; auto. apply fixed_fine. Qed.

  (** [extend]. *)
  Lemma avl_extend_any ps (m : avl_map K V) l n0 : a_any m l -> (Z.of_nat (length l + length ps) < 2 ^ 63)%Z ->
    copes_n ask n0 (a_extend_t bor ask m ps n0) (fun m' _ n => exists l', a_any m' l' /\ may_extend bor (said bor ask n0 n) ps l l')
      (fun m' n => exists ps1 p ps2 l', ps = ps1 ++ p :: ps2 /\ a_any m' l' /\ may_extend bor (said bor ask n0 n) ps1 l l').
  Proof.
    intros H R. pose proof (extend_any bor ask (avl_calls bor ask) (@a_any K V) room63 room63_down (fun _ _ => eq_refl) (fun _ _ _ _ _ => eq_refl)
      (fun m l k v n H R => a_insert_copes bor ask m l k v n H (room_small l R)) ps m l n0 H R) as T.
    cbn [mc_extend avl_calls] in T. destruct (a_extend_t bor ask m ps n0) as [m' [] n|m' n|]; cbn; auto.
    - destruct T as (L & l' & T). split; auto. exists l'. tauto.
    - destruct T as (L & P & ps1 & p & ps2 & l' & T). split; auto. split; auto. exists ps1, p, ps2, l'. tauto.
  Qed.
  Lemma btree_extend_any N (HN : 1 <= N) ps (m : bt_map K V) l n0 : b_any N m l ->
    copes_n ask n0 (b_extend_t bor ask N m ps n0) (fun m' _ n => exists l', b_any N m' l' /\ may_extend bor (said bor ask n0 n) ps l l')
      (fun m' n => exists ps1 p ps2 l', ps = ps1 ++ p :: ps2 /\ b_any N m' l' /\ may_extend bor (said bor ask n0 n) ps1 l l').
  Proof.
    intros H. pose proof (extend_any bor ask (btree_calls bor ask N) (@b_any K V N) anywhere (fun _ _ _ H => H) (fun _ _ => eq_refl) (fun _ _ _ _ _ => eq_refl)
      (fun m l k v n H _ => b_insert_copes bor ask N HN m l k v n H) ps m l n0 H Logic.I) as T.
    cbn [mc_extend btree_calls] in T. destruct (b_extend_t bor ask N m ps n0) as [m' [] n|m' n|]; cbn; auto.
    - destruct T as (L & l' & T). split; auto. exists l'. tauto.
    - destruct T as (L & P & ps1 & p & ps2 & l' & T). split; auto. split; auto. exists ps1, p, ps2, l'. tauto.
  Qed.
  Lemma fixed_extend_any sk ps (m : f_map K V) l n0 : f_any m l ->
    copes_n ask n0 (f_extend_t bor ask sk m ps n0) (fun m' _ n => exists l', f_any m' l' /\ may_extend bor (said bor ask n0 n) ps l l')
      (fun m' n => exists ps1 p ps2 l', ps = ps1 ++ p :: ps2 /\ f_any m' l' /\ may_extend bor (said bor ask n0 n) ps1 l l').
  Proof.
    intros H. pose proof (extend_any bor ask (fixed_calls bor ask sk) (@f_any K V) anywhere (fun _ _ _ H => H) (fun _ _ => eq_refl) (fun _ _ _ _ _ => eq_refl)
      (fun m l k v n H _ => f_insert_copes bor ask sk m l k v n H) ps m l n0 H Logic.I) as T.
    cbn [mc_extend fixed_calls] in T. destruct (f_extend_t bor ask sk m ps n0) as [m' [] n|m' n|]; cbn; auto.
    - destruct T as (L & l' & T). split; auto. exists l'. tauto.
    - destruct T as (L & P & ps1 & p & ps2 & l' & T). split; auto. split; auto. exists ps1, p, ps2, l'. tauto.
  Qed.

  Lemma btree_append_any N (HN : 1 <= N) un (a b : bt_map K V) la lb n0 : b_any N a la -> b_any N b lb ->
    copes_n ask n0 (b_append_t bor ask N un a b n0)
      (fun '(a', b') _ n => b' = b_new /\ exists l', b_any N a' l' /\ may_extend bor (said bor ask n0 n) lb la l')
      (fun '(a', b') n => b' = b_new /\ exists ps1 p ps2 l', lb = ps1 ++ p :: ps2 /\ b_any N a' l' /\ may_extend bor (said bor ask n0 n) ps1 la l').
  Proof.
    intros Ha Hb. unfold b_append_t. rewrite (b_list_any N HN un b lb Hb). pose proof (btree_extend_any N HN lb a la n0 Ha) as T.
    destruct (b_extend_t bor ask N a lb n0) as [m' [] n|m' n|]; cbn in *; tauto.
  Qed.

  (** Lawful answers. *)
  Context (cmp : Q -> Q -> comparison) (laws : order_laws cmp) (A : answers cmp ask).
  Ltac fare E := let most := fresh in destruct E as (most & _ & E); eexists; exact E.
  Lemma avl_run_law cs (m : avl_map K V) l n0 : shows bor cmp m l -> (Z.of_nat (length l + all_adds cs) < 2 ^ 63)%Z ->
    exists m' os n l', run (avl_calls bor ask) m cs n0 = Some (m', os, n) /\ shows bor cmp m' l' /\ allowed ask (should bor cmp) n0 cs os l l' n.
  Proof.
    intros H0 R. apply run_fine with (room := room63); [exact room63_down| |exact H0|exact R]. clear H0 R. apply lawful_fine; [exact room63_down|reflexivity|reflexivity|..]; cbn [avl_calls mc_insert mc_remove mc_get mc_get_mut].
    - intros. pose proof (a_insert_ask bor cmp ask laws A m0 l0 k v n1 H (room_small l0 H0)) as E. fare E.
    - intros. pose proof (a_remove_ask bor cmp ask laws A m0 l0 q n1 H H0) as E. fare E.
    - intros. destruct (a_lookup_ask bor cmp ask laws A m0 l0 q n1 H) as (most & _ & E & _). eauto.
    - intros. pose proof (a_get_mut_ask bor cmp ask laws A m0 l0 q w n1 H H0) as E. fare E.
  Qed.
  Lemma btree_run_law N (HN : 1 <= N) cs (m : bt_map K V) l n0 : b_shows bor cmp N m l ->
    exists m' os n l', run (btree_calls bor ask N) m cs n0 = Some (m', os, n) /\ b_shows bor cmp N m' l' /\ allowed ask (should bor cmp) n0 cs os l l' n.
  Proof.
    intros H. apply run_fine with (room := anywhere); auto; [unfold anywhere; auto|..|exact Logic.I]. apply lawful_fine; cbn [btree_calls mc_insert mc_remove mc_get mc_get_mut]; auto.
    - intros. pose proof (b_insert_ask bor cmp ask laws A N HN m0 l0 k v n1 H0) as E. fare E.
    - intros. pose proof (b_remove_ask bor cmp ask laws A N HN m0 l0 q n1 H0) as E. fare E.
    - intros. destruct (b_lookup_ask bor cmp ask laws A N HN m0 l0 q n1 H0) as (most & _ & E & _). eauto.
    - intros. pose proof (b_get_mut_ask bor cmp ask laws A N HN m0 l0 q w n1 H0) as E. fare E.
  Qed.
  Lemma fixed_run_law sk cs (m : f_map K V) l n0 : f_shows bor cmp m l ->
    exists m' os n l', run (fixed_calls bor ask sk) m cs n0 = Some (m', os, n) /\ f_shows bor cmp m' l' /\ allowed ask (should bor cmp) n0 cs os l l' n.
  Proof.
    intros H. apply run_fine with (room := anywhere); auto; [unfold anywhere; auto|..|exact Logic.I]. apply lawful_fine; cbn [fixed_calls mc_insert mc_remove mc_get mc_get_mut]; auto.
    - intros. pose proof (f_insert_ask bor cmp ask laws A sk m0 l0 k v n1 H0) as E. fare E.
    - intros. pose proof (f_remove_ask bor cmp ask laws A sk m0 l0 q n1 H0) as E. fare E.
    - intros. pose proof (f_get_ask bor cmp ask laws A sk m0 l0 q n1 H0) as E. fare E.
    - intros. pose proof (f_get_mut_ask bor cmp ask laws A sk m0 l0 q w n1 H0) as E. fare E.
  Qed.
End Maps.
