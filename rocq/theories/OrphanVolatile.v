(** Programs on any bulk loaded tree, whatever code compares the keys: they run
    up to a removal that stops at a node the loader left with a single child. *)
From stdpp Require Import list sorting.
From Verif Require Import Base Slots BinSearch LeafNode InnerNode Store Tree Remove Iterators Observe Cursor
  BulkLoad InsertParts Volatile History SlotLemmas NodeLemmas Spec AugSpec AnySpec Order Logical Descent InsertProof InvLemmas InsertTop
  RemoveLeaf RemoveInner RemoveProof RemoveTop Lookup IterProof IntoProof BulkProof HistTop AnyProof VolatileSpec VolatileProof OrphanAny.

Section OrphanVolatile.
Context {W K V A : Type} {KO : KeyOps K} {PF : Profile} {OM : OrdMode} {OI : OrdIf K} {AO : AugOps K V A} (HF : ~ ORD).
Notation tr := (tr K V).
Notation tree := (tree K V A).
Notation code := (code W K).
Context (Hnd0 : aug_needs_drop (K:=K) (V:=V) (A:=A) = false).
Notation InvAt := (InvAt (A:=A) 1 0 False).
Implicit Types (c : code) (T : tree) (t : tr).

Lemma remove_c_gen c T h t w : InvAt T h t -> (N.of_nat (t_len T) < 2 ^ 64)%N ->
  (exists j, remove_c T c w = stuck j) \/
  exists r T' w' h' t', remove_c T c w = Ok (r, T', w') /\ InvAt T' h' t' /\
    match r with Some o => one_removed c (flat t) o (flat t') | None => panics c /\ flat t' = flat t end.
Proof.
  intros HI Hlen. unfold remove_c.
  assert (h <= MAX_DEPTH) as Hh.
  { pose proof (inv_len _ _ _ _ _ _ HI) as E. rewrite E in Hlen. eapply height_bound; [apply HI|done]. }
  assert (forall w, exists r w', key_to_ref_loop_c (descend_fuel (t_store T)) (t_store T) (nid t) c [] w = Ok (r, w') /\
    match r with
    | Some (Some (st', id, off)) => exists kvs mA mB s1 s2 k v, reach t id kvs mA mB s1 s2 st' /\ kvs !! off = Some (k, v) /\ says_eq c k
    | Some None => True | None => panics c end) as Hk.
  { intros w0. destruct (key_to_ref_does 1 0 ltac:(lia) ltac:(lia) ltac:(lia) c (t_store T) h t true (rmin h) (descend_fuel (t_store T)) []) with (w := w0) as (r & w' & E & Hr).
    { intros s1 id kvs s2 Es. destruct (leaf_of_get 1 0 T h t id HI) as (s1' & kvs' & s2' & Es' & Hz & El); [by exists s1, kvs, s2|].
      unfold get_leaf in El. pose proof (inv_leaf _ _ _ _ _ _ _ _ _ _ HI Es) as El2. rewrite El2 in El.
      split; [injection El as E _ _ _ _; lia|]. eexists _, _. exact El2. }
    { apply HI. } { apply HI. } { by apply (fuel_inv 1 0 False _ _ _ HI). } { simpl. lia. }
    exists r, w'. split; [exact E|]. destruct r as [[[[st' id] off]|]|]; try done.
    destruct Hr as (kvs & mA & mB & s1 & s2 & st & k & v & R & -> & Hk & He). rewrite app_nil_r. eauto 12. }
  unfold leaving, cbind. rewrite (inv_root _ _ _ _ _ _ HI). destruct (Hk w) as (r & w1 & -> & Hr). rewrite !obind_Ok.
  destruct r as [[[[st id] off]|]|].
  - destruct Hr as (kvs & mA & mB & s1 & s2 & k & v & R & Hoff & He). unfold clift.
    destruct (remove_by_ref_gen 1 0 False ltac:(lia) ltac:(lia) T h t id kvs mA mB s1 s2 st off (k, v) HI R Hoff (or_introl Hnd0))
      as [(_ & j & _ & E)|(T' & h' & t' & E & HI' & Hh' & Ef' & _)]; rewrite E.
    + left. exists j. by rewrite !stuck_bind.
    + right. rewrite !obind_Ok. unfold cret. rewrite obind_Ok. eexists _, T', w1, h', t'. split; [done|]. split; [done|].
      destruct (split_at_elem _ _ _ Hoff) as (a & b & -> & <-). rewrite delete_middle' in Ef' by done.
      exists (elems mA ++ a), k, (b ++ elems mB). rewrite Ef', <- !app_assoc.
      rewrite <- elems_trav, (reach_trav _ _ _ _ _ _ _ _ R), !elems_app, elems_emark, <- !app_assoc. done.
  - right. unfold cret. rewrite obind_Ok. eexists _, T, w1, h, t. done.
  - right. eexists _, T, w1, h, t. done.
Qed.

Lemma vstep_gen T h t (o : vop W K V) w : InvAt T h t -> (N.of_nat (length (flat t)) < 2 ^ 64)%N ->
  (exists c j, o = VRemove c /\ vstep T o w = stuck j) \/
  exists r T' w' h' t', vstep T o w = Ok (r, T', w') /\ InvAt T' h' t' /\ vstep_any (flat t) o r (flat t').
Proof.
  intros HI Hlen. assert (is_vremove o \/ ~ is_vremove o) as [Hr|Hr] by (destruct o; simpl; tauto).
  - destruct o as [ |c| | | | | | | | | | | | | ]; try done. rewrite <- (inv_len _ _ _ _ _ _ HI) in Hlen.
    destruct (remove_c_gen c T h t w HI Hlen) as [(j & E)|(r & T' & w' & h' & t' & E & HI' & Hr')]; cbn [vstep]; unfold write_call; rewrite E.
    + left. exists c, j. split; [done|]. apply stuck_bind.
    + right. rewrite obind_Ok. eexists _, T', w', h', t'. split; [done|]. split; [done|]. cbn [vstep_any].
      destruct r as [x|]; [left; by exists x|right]. destruct Hr' as [Hp ->]. done.
  - right. by apply (vstep_ok HF 1 0 ltac:(lia) ltac:(lia) ltac:(lia) T h t o w HI).
Qed.

Lemma vrun_gen (ops : list (vop W K V)) : forall T h t w, InvAt T h t -> (N.of_nat (length (flat t) + vinserts ops) < 2 ^ 64)%N ->
  (exists rs T' w' l, vrun T ops w = Ok (rs, T', w') /\ vruns (flat t) ops rs l /\
    entries T' = Ok l /\ t_len T' = length l /\ tree_drop T' = Ok l) \/
  exists ops1 c ops2 rs T' w' l j, ops = ops1 ++ VRemove c :: ops2 /\
    vrun T ops1 w = Ok (rs, T', w') /\ vruns (flat t) ops1 rs l /\
    entries T' = Ok l /\ t_len T' = length l /\ tree_drop T' = Ok l /\ vrun T (ops1 ++ VRemove c :: ops2) w = stuck j.
Proof.
  assert (forall T h t, InvAt T h t -> entries T = Ok (flat t) /\ t_len T = length (flat t) /\ tree_drop T = Ok (flat t)) as Hend.
  { intros T h t HI. split; [eapply entries_ok; [|done]; lia|]. split; [apply HI|]. eapply tree_drop_ok; [|done]; lia. }
  induction ops as [|o ops IH]; intros T h t w HI Hn.
  { left. eexists _, T, w, (flat t). split; [done|]. split; [constructor|]. by apply (Hend T h). }
  assert (vinserts ops <= vinserts (o :: ops)) as Hle by (destruct o; simpl; lia).
  destruct (vstep_gen T h t o w HI) as [(c & j & -> & E)|(r & T1 & w1 & h1 & t1 & E & HI1 & H1)]; [lia|..].
  - right. destruct (Hend T h t HI) as (X1 & X2 & X3).
    exists [], c, ops, [], T, w, (flat t), j. cbn [app vrun]. split_and!; try done; [constructor|]. rewrite E. apply stuck_bind.
  - pose proof (vstep_any_length _ _ _ _ ops H1) as Hl.
    destruct (IH T1 h1 t1 w1 HI1) as [(rs & T' & w' & l & E' & X & Y)|(ops1 & c & ops2 & rs & T' & w' & l & j & -> & E' & X & Y1 & Y2 & Y3 & Es)]; [lia|..].
    + left. eexists _, T', w', l. cbn [vrun]. rewrite E, obind_Ok, E', obind_Ok. split; [done|]. split; [by econstructor|done].
    + right. eexists (o :: ops1), c, ops2, _, T', w', l, j. cbn [app vrun]. rewrite E, !obind_Ok, E', Es, obind_Ok, stuck_bind.
      split_and!; try done. by econstructor.
Qed.
End OrphanVolatile.

Lemma bulk_program_gen {W K V A} {AO : AugOps K V A} {PF : Profile} (c : code2 W K) (data : list (K * V)) w :
  aug_needs_drop (K:=K) (V:=V) (A:=A) = false ->
  exists r w1, bulk_load_c c data w = Ok (r, w1) /\
  match r with
  | None => panics2 c
  | Some T0 => exists l0, entries T0 = Ok l0 /\ thinned data l0 /\
      forall ops : list (vop W K V), (N.of_nat (length l0 + vinserts ops) < 2 ^ 64)%N ->
      (exists rs (T : tree K V A) w' l, vrun T0 ops w1 = Ok (rs, T, w') /\ vruns l0 ops rs l /\
        entries T = Ok l /\ t_len T = length l /\ tree_drop T = Ok l) \/
      ~ orphan_free (length l0) /\
      exists ops1 p ops2 rs T w' l, ops = ops1 ++ VRemove p :: ops2 /\
        vrun T0 ops1 w1 = Ok (rs, T, w') /\ vruns l0 ops1 rs l /\
        entries T = Ok l /\ t_len T = length l /\ tree_drop T = Ok l /\
        (vrun T0 ops w1 = Panic \/ dev = false /\ vrun T0 ops w1 = UB)
  end.
Proof.
  intros Hnd0. set (KO := (fun _ _ => Eq) : KeyOps K).
  destruct (bulk_load_does (KO:=KO) (OM:=om_false) (OI:=ord_if_false K KO) (A:=A) (fun x => x) c data w) as (r & w1 & E & Hr).
  exists r, w1. split; [exact E|]. destruct r as [T0|]; [|done]. destruct Hr as (l0 & Hth & HT). exists l0.
  split; [|split; [done|]].
  - destruct (HT 0) as (h & t & HI & <-); [lia|done|]. refine (entries_ok (KO:=KO) (OM:=om_false) 1 0 False _ T0 h t HI). lia.
  - intros ops Hn.
    assert (orphan_free (length l0) \/ ~ orphan_free (length l0)) as [Ho|Ho].
    { unfold orphan_free. destruct (decide (length l0 = 0)); [by left; left|].
      destruct (no_orphan_dec ((length l0 + 63) / 64)) as [H|H]; [by left; right|]. right. by intros [?|?]. }
    + left. apply (program_ok (KO:=KO) (OM:=om_false) (OI:=ord_if_false K KO) (fun x => x) T0 1 l0); [lia| |].
      * intros ri Hri Ho'. apply HT; [done|]. intros ->. auto.
      * split; try done. by left.
    + destruct (HT 0) as (h & t & HI & Hf); [lia|done|]. rewrite <- Hf in Hn.
      destruct (vrun_gen (KO:=KO) (OM:=om_false) (OI:=ord_if_false K KO) (fun x => x) Hnd0 ops T0 h t w1 HI Hn)
        as [(rs & T' & w' & l & X)|(ops1 & p & ops2 & rs & T' & w' & l & j & -> & X1 & X2 & X3 & X4 & X5 & Es)]; rewrite Hf in *.
      * left. by exists rs, T', w', l.
      * right. split; [done|]. exists ops1, p, ops2, rs, T', w', l. split_and!; try done. by apply (stuck_is j).
Qed.
