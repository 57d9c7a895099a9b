(** The statements of PropOwned.v. *)
From stdpp Require Import list.
From Verif Require Import Base Slots BinSearch LeafNode InnerNode Store Tree Remove Iterators Observe BulkLoad History Spec
  SlotLemmas NodeLemmas Order Logical Lookup IntoProof HistTop Owned OwnedSpec OwnedProof OwnedExact.

Section OwnedTop.
Context {K V A : Type} {KO : KeyOps K} {PF : Profile} {OL : OrdLaws K} {AO : AugOps K V A}.

Lemma drop_panics b (T : tree K V A) l bad m : reachable b T l -> m <> Aborted ->
  exists d, tree_drop_p bad T (mkDrops [] m) = Ok d /\ NoDup (dropped d) /\
    (forall p, p ∈ dropped d -> owns T p) /\
    mood_of d = mood_after m (panics bad (dropped d)) /\
    omap (key_at (t_store T)) (dropped d) `prefix_of` map fst l /\
    (mood_of d = Aborted -> exists l' q, dropped d = l' ++ [q] /\ bad q = true /\ mood_after m (panics bad l') <> Aborted) /\
    (mood_of d <> Aborted -> forall p, owns T p ->
      p ∉ dropped d <-> exists q, q ∈ dropped d /\ bad q = true /\ sooner (t_store T) q p).
Proof.
  intros Hr Hm. destruct (reachable_any False b T l Hr) as (ri & h & t & Hlow & Hri & HI & <- & Ha & _); [done|].
  assert (1 <= low b) as Hrl1 by lia.
  destruct (tree_drop_p_spec bad (low b) ri False Hrl1 T h t m HI) as (d & E & H1 & H2 & H3 & H4 & _ & _).
  destruct (tree_exact bad (low b) ri False Hrl1 T h t m d HI Ha Hm E) as [H5 H6]. by exists d.
Qed.

Lemma drop_all b (T : tree K V A) l bad m : reachable b T l -> m <> Aborted ->
  (forall p, owns T p -> bad p = false) ->
  exists tr, tree_drop_p bad T (mkDrops [] m) = Ok (mkDrops tr m) /\ NoDup tr /\
    (forall p, p ∈ tr <-> owns T p) /\ omap (key_at (t_store T)) tr = map fst l.
Proof.
  intros Hr Hm Hb. destruct (reachable_any False b T l Hr) as (ri & h & t & Hlow & Hri & HI & <- & _); [done|].
  assert (1 <= low b) as Hrl1 by lia.
  destruct (tree_drop_p_spec bad (low b) ri False Hrl1 T h t m HI) as ([tr m'] & E & H1 & H2 & H3 & _ & H4 & H5).
  cbn [dropped mood_of] in *.
  assert (panics bad tr = 0) as Hp.
  { unfold panics. replace (filter _ tr) with ([] : list place); [done|]. symmetry. clear -H2 Hb.
    induction tr as [|p tr IH]; [done|]. rewrite filter_cons, Hb by (apply H2; by left). cbn.
    apply IH. intros q Hq. apply H2. by right. }
  rewrite Hp in H3. assert (m' = m) as -> by (by destruct m). exists tr. split_and!; try done.
  - intros p. split; [by apply H2|]. intros Ho. destruct (decide (p ∈ tr)) as [D|D]; [done|].
    destruct (H5 Hm p Ho D) as (q & Hq & Eq & _). rewrite Hb in Eq by (by apply H2). done.
  - apply H4; [done|]. intros q Hq _. by apply Hb, H2.
Qed.

Lemma into_drop_panics b (T : tree K V A) l bad m ends : reachable b T l -> m <> Aborted ->
  exists it rs it' d, into_iter_new T = Ok it /\ into_drive it ends = Ok (rs, it') /\
    into_drop_p bad it' (mkDrops [] m) = Ok d /\
    NoDup (dropped d) /\ (forall p, p ∈ dropped d -> holds (ii_store it') p) /\
    (forall p, ~ in_leaf p -> holds (ii_store it') p <-> holds (t_store T) p) /\
    mood_of d = mood_after m (panics bad (dropped d)) /\
    (mood_of d = Aborted -> exists l' q, dropped d = l' ++ [q] /\ bad q = true /\ mood_after m (panics bad l') <> Aborted) /\
    (mood_of d <> Aborted -> forall p, holds (ii_store it') p ->
      p ∉ dropped d <-> exists q, q ∈ dropped d /\ bad q = true /\ sooner (ii_store it') q p).
Proof.
  intros Hr Hm. destruct (reachable_any False b T l Hr) as (ri & h & t & Hlow & Hri & HI & <- & Ha & _); [done|].
  assert (1 <= low b) as Hrl1 by lia.
  destruct (into_new_ok (low b) ri False Hrl1 T h t HI) as (it & E & H & Es).
  destruct (into_drive_ok (leaf_seq t) it _ _ ends H) as (it' & lo & hi & H' & Hi & Ed & _).
  assert (forall i n, inners (ii_store it') !! i = Some (Some n) -> whole n) as Hw.
  { rewrite Hi, Es. by eapply inv_whole. }
  destruct (into_drop_p_spec bad (leaf_seq t) it' lo hi m H' Hw) as (d & E' & H1 & H2 & H3 & _).
  destruct (into_exact bad (leaf_seq t) it' lo hi m d H' Ha Hw Hm E') as [H4 H5].
  eexists it, _, it', d. split_and!; try done.
  intros [id i|id i|id i|id i|] Hp; try (by destruct Hp); simpl; by rewrite ?Hi, ?Es.
Qed.

Lemma clone_panics b (T : tree K V A) l cbad dbad : reachable b T l ->
  exists made r, tree_clone_p cbad dbad T = Ok (made, r) /\ NoDup made /\
    (forall p, p ∈ made -> owns T p /\ cbad p = false) /\
    match r with
    | None => forall p, owns T p -> p ∈ made
    | Some d => exists q, owns T q /\ cbad q = true /\
        NoDup (dropped d) /\ (forall p, p ∈ dropped d -> p ∈ made /\ ~ in_leaf p) /\
        mood_of d = mood_after Unwinding (panics dbad (dropped d)) /\
        (mood_of d <> Aborted -> forall p, p ∈ made -> p ∉ dropped d ->
          shields q p \/ exists q, q ∈ dropped d /\ dbad q = true /\ shields q p)
    end.
Proof.
  intros Hr. destruct (reachable_any False b T l Hr) as (ri & h & t & Hlow & Hri & HI & <- & _); [done|].
  assert (1 <= low b) as Hrl1 by lia. exact (tree_clone_p_spec (low b) ri False Hrl1 cbad dbad T h t HI).
Qed.
End OwnedTop.
