(** Operations through an entry found by augmentation, on reachable trees. *)
From stdpp Require Import list sorting.
From Verif Require Import Base Slots BinSearch LeafNode InnerNode Store Tree Remove Iterators Augment BulkLoad History
  SlotLemmas NodeLemmas Spec Order Logical Descent InsertProof InvLemmas InsertTop
  RemoveLeaf RemoveInner RemoveProof RemoveTop Lookup RefProof AugProof IterProof IntoProof HistProof HistTop.

Section AugTop.
Context {K V A : Type} {KO : KeyOps K} {PF : Profile} {OL : OrdLaws K} {AO : AugOps K V A}.
Notation tr := (tr K V).
Notation tree := (tree K V A).
Context {Q : Type} {SO : SearchOps K V A Q}.

Lemma reachable_size b (T : tree) l : reachable b T l -> (N.of_nat (length l) < 2 ^ 64)%N.
Proof. intros (ops & rs & Hl & _ & <-). apply fits_end, Hl. Qed.

(** The search for [q] ends at the entry number [j] of the map. *)
Definition found (b : start K V) (T : tree) (l : list (K * V)) (q : Q) (j : nat) : Prop :=
  exists SYNC ri h t id kvs mA mB s1 s2 st off, 1 <= low b <= 16 /\ ri <= 16 /\
    InvAt (A:=A) (low b) ri SYNC T h t /\ h <= MAX_DEPTH /\ (orphan_free (length (spec_begin b)) -> ri = low b) /\
    flat t = l /\ reach t id kvs mA mB s1 s2 st /\ off < length kvs /\ j = length (elems mA) + off /\
    get_ref_by_augmentation T q = Ok (Some (st, id, off)).

Lemma reach_lookup (t : tr) id kvs mA mB s1 s2 st off : reach t id kvs mA mB s1 s2 st -> off < length kvs ->
  flat t !! (length (elems mA) + off) = kvs !! off.
Proof.
  intros R Ho. rewrite <- elems_trav, (reach_trav _ _ _ _ _ _ _ _ R), !elems_app, elems_emark.
  rewrite lookup_app_r by lia. rewrite lookup_app_l by lia. by replace (_ + off - _) with off by lia.
Qed.

Lemma found_get b T l q j : found b T l q j -> exists kv, l !! j = Some kv /\ get_by_augmentation T q = Ok (Some kv).
Proof.
  intros (SYNC & ri & h & t & id & kvs & mA & mB & s1 & s2 & st & off & Hlow & Hri & HI & Hh & Hof & <- & R & Ho & -> & E).
  destruct (lookup_lt_is_Some_2 kvs off Ho) as [[k v] Hkv]. exists (k, v). rewrite (reach_lookup _ _ _ _ _ _ _ _ _ R Ho).
  split; [done|]. by eapply get_aug_at.
Qed.

Lemma found_remove b T l q j : reachable b T l -> removal_ok (A:=A) b l -> found b T l q j ->
  exists kv T', l !! j = Some kv /\ remove_by_augmentation T q = Ok (Some kv, T') /\ reachable b T' (delete j l).
Proof.
  intros Hr Hrm (SYNC & ri & h & t & id & kvs & mA & mB & s1 & s2 & st & off & Hlow & Hri & HI & Hh & Hof & Hf & R & Ho & Hj & E).
  destruct (lookup_lt_is_Some_2 kvs off Ho) as [[k v] Hkv]. exists (k, v).
  assert (l !! j = Some (k, v)) as El by (by rewrite Hj, <- Hf, (reach_lookup _ _ _ _ _ _ _ _ _ R Ho)).
  assert (ascending l) as Ha by (rewrite <- Hf; by eapply inv_ascending).
  specialize (Hof (proj1 Hrm)). assert (aug_needs_drop (K:=K) (V:=V) (A:=A) = false \/ h <= 1) as Hdr.
  { apply (drop_height (low b) ri SYNC ltac:(lia) ltac:(lia) T h t HI). rewrite Hf. apply Hrm. }
  destruct (remove_by_ref_ok (low b) ri SYNC ltac:(lia) ltac:(lia) T h t id kvs mA mB s1 s2 st off (k, v) HI R Hkv Hdr)
    as (T1 & h1 & t1 & E1 & _).
  exists T1. split; [done|].
  assert (remove_by_augmentation T q = Ok (Some (k, v), T1)) as E2.
  { unfold remove_by_augmentation. by rewrite E, obind_Ok, E1. }
  split; [done|].
  destruct (reachable_step b T l (ORemove (probe_key k)) Hr) as (T' & Es & Hr').
  { apply probe_key_ok. }
  { done. }
  { cbn [spec_step snd]. pose proof (spec_remove_length (probe_key k) l). pose proof (reachable_size _ _ _ Hr). lia. }
  cbn [step spec_step fst snd] in Es, Hr'. rewrite (spec_remove_at l j k v Ha El) in Hr'.
  rewrite (remove_aug_at _ _ _ _ _ _ k v _ _ _ _ _ _ _ _ _ HI Hh R Hkv E) in E2.
  unfold remove in Es. rewrite E2, !obind_Ok in Es. by injection Es as _ ->.
Qed.

Lemma found_get_mut b T l q j f : reachable b T l -> found b T l q j ->
  exists k v T', l !! j = Some (k, v) /\ get_mut_by_augmentation T q f = Ok (Some v, T') /\
    reachable b T' (<[j := (k, f v)]> l).
Proof.
  intros Hr (SYNC & ri & h & t & id & kvs & mA & mB & s1 & s2 & st & off & Hlow & Hri & HI & Hh & Hof & Hf & R & Ho & Hj & E).
  destruct (lookup_lt_is_Some_2 kvs off Ho) as [[k v] Hkv]. exists k, v.
  assert (l !! j = Some (k, v)) as El by (by rewrite Hj, <- Hf, (reach_lookup _ _ _ _ _ _ _ _ _ R Ho)).
  assert (ascending l) as Ha by (rewrite <- Hf; by eapply inv_ascending).
  destruct (get_mut_aug_at _ _ _ _ _ _ k v _ _ _ _ _ _ _ _ _ f (proj1 Hlow) HI R Hkv E) as (r & T1 & E1 & E2).
  destruct (reachable_step b T l (OGetMut (probe_key k) f) Hr) as (T2 & Es & Hr2); [apply probe_key_ok|done| |].
  { cbn [spec_step snd]. rewrite spec_update_length. by eapply reachable_size. }
  cbn [step spec_step fst snd] in Es, Hr2. rewrite E1, obind_Ok in Es. injection Es as _ ->.
  rewrite (spec_update_at f l j k v Ha El) in Hr2.
  destruct (reachable_step b T2 _ (OReaders (cached (t_store T))) Hr2) as (T3 & Es & Hr3); [done|done| |].
  { cbn [spec_step snd]. by eapply reachable_size. }
  cbn [step spec_step fst snd] in Es, Hr3. injection Es as <-.
  eexists. by split_and!.
Qed.
End AugTop.
