(** Single calls on a tree a program can hold: the lemmas behind PropMap.v. *)
From stdpp Require Import list sorting relations.
From Verif Require Import Base Slots BinSearch LeafNode InnerNode Store Tree Remove Iterators Observe Augment BulkLoad History
  Readers SlotLemmas NodeLemmas Spec Contents Order ContentsProof Logical Descent InsertProof InvLemmas InsertTop
  RemoveLeaf RemoveInner RemoveProof RemoveTop Lookup IterProof IntoProof HistProof HistTop AugTop.

Section MapTop.
Context {K V A : Type} {KO : KeyOps K} {PF : Profile} {OL : OrdLaws K} {AO : AugOps K V A}.
Notation tree := (tree K V A).

Lemma reachable_entries b (T : tree) l : reachable b T l -> entries T = Ok l /\ ascending l.
Proof.
  intros Hr. destruct (reachable_any False b T l Hr) as (ri & h & t & Hlow & _ & HI & <- & Ha & _); [done|].
  split; [|done]. eapply entries_ok; [|done]. lia.
Qed.

Lemma reachable_len b (T : tree) l : reachable b T l -> t_len T = length l /\ (is_empty T = true <-> l = []).
Proof.
  intros Hr. destruct (reachable_any False b T l Hr) as (ri & h & t & Hlow & _ & HI & <- & Ha & _); [done|].
  split; [apply HI|]. rewrite (is_empty_ok _ _ _ _ _ _ HI). apply bool_decide_eq_true.
Qed.

Lemma reachable_ends b (T : tree) l : reachable b T l ->
  exists f z, first T = Ok f /\ least_is l f /\ Tree.last T = Ok z /\ greatest_is l z.
Proof.
  intros Hr. destruct (reachable_any False b T l Hr) as (ri & h & t & Hlow & _ & HI & <- & Ha & _); [done|].
  exists (head (flat t)), (list.last (flat t)).
  rewrite (first_ok (low b) ri False ltac:(lia) T h t HI), (last_ok (low b) ri False ltac:(lia) T h t HI).
  split_and!; [done|by apply head_least|done|by apply last_greatest].
Qed.

Lemma insert_effect_ok b (T : tree) l k v : reachable b T l -> (N.of_nat (S (length l)) < 2 ^ 64)%N ->
  exists r T' l', insert T k v = Ok (r, T') /\ lookup_is (probe_key k) l r /\ reachable b T' l' /\ insert_is k v l l'.
Proof.
  intros Hr Hs. destruct (reachable_entries _ _ _ Hr) as [_ Ha].
  destruct (reachable_step b T l (OInsert k v) Hr I) as (T' & E & Hr'); [done| |].
  { simpl. pose proof (spec_insert_length k v l). lia. }
  simpl in E, Hr'. destruct (insert T k v) as [[r T1]| | | |]; simpl in E; try done. injection E as -> ->.
  exists (spec_get (probe_key k) l), T', (spec_insert k v l).
  split; [done|]. split; [apply spec_get_lookup|]. split; [done|]. by apply spec_insert_is.
Qed.

Lemma remove_effect_ok b (T : tree) l p : reachable b T l -> removal_ok (A:=A) b l -> probe_ok p ->
  exists r T' l', remove T p = Ok (r, T') /\ lookup_is p l r /\ reachable b T' l' /\ remove_is p l l' /\
    (r = None -> l' = l).
Proof.
  intros Hr Ho Hp. destruct (reachable_entries _ _ _ Hr) as [_ Ha].
  destruct (reachable_step b T l (ORemove p) Hr Hp (fun _ => Ho)) as (T' & E & Hr').
  { simpl. pose proof (reachable_size _ _ _ Hr). pose proof (spec_remove_length p l). lia. }
  simpl in E, Hr'. destruct (remove T p) as [[r T1]| | | |]; simpl in E; try done. injection E as -> ->.
  exists (spec_get p l), T', (spec_remove p l).
  split; [done|]. split; [apply spec_get_lookup|]. split; [done|]. split; [by apply spec_remove_is|].
  intros En. pose proof (spec_get_lookup p l) as H. rewrite En in H. simpl in H. clear -H.
  induction l as [|[k v] l IH]; simpl; [done|]. pose proof (H k v) as Hk. destruct (p k).
  - destruct Hk; [by left|done].
  - f_equal. apply IH. intros k' v' Hin. apply (H k' v'). by right.
  - f_equal. apply IH. intros k' v' Hin. apply (H k' v'). by right.
Qed.

Lemma get_ok_cache b (T : tree) l p c : reachable b T l -> probe_ok p ->
  exists r c', get (with_cache T c) p = Ok (r, with_cache T c') /\ lookup_is p l r.
Proof.
  intros Hr Hp. destruct (reachable_any False b T l Hr) as (ri & h & t & Hlow & _ & HI & <- & Ha & _); [done|].
  pose proof (inv_cache _ _ _ _ _ _ c HI) as HIc.
  destruct (get_ok (low b) ri False ltac:(lia) _ h t p ord_true HIc Hp) as (c' & E & _).
  exists (spec_get p (flat t)), c'. split; [exact E|]. apply spec_get_lookup.
Qed.

Lemma get_mut_effect_ok b (T : tree) l p f : reachable b T l -> probe_ok p ->
  exists r T' l', get_mut T p f = Ok (r, T') /\ lookup_is p l r /\ reachable b T' l' /\ update_is p f l l' /\
    map fst l' = map fst l.
Proof.
  intros Hr Hp. destruct (reachable_entries _ _ _ Hr) as [_ Ha].
  destruct (reachable_step b T l (OGetMut p f) Hr Hp) as (T' & E & Hr'); [done| |].
  { simpl. rewrite spec_update_length. apply (reachable_size _ _ _ Hr). }
  simpl in E, Hr'. destruct (get_mut T p f) as [[r T1]| | | |]; simpl in E; try done. injection E as -> ->.
  exists (spec_get p l), T', (spec_update p f l).
  split; [done|]. split; [apply spec_get_lookup|]. split; [done|]. split; [by apply spec_update_is|apply spec_update_keys].
Qed.

Lemma borrowed_ok b (T : tree) l p k f : reachable b T l -> probe_ok p -> p k = Eq ->
  (exists r T1 T2, get T p = Ok (r, T1) /\ get T (probe_key k) = Ok (r, T2)) /\
  (exists r T1 T2 l', get_mut T p f = Ok (r, T1) /\ get_mut T (probe_key k) f = Ok (r, T2) /\
    reachable b T1 l' /\ reachable b T2 l') /\
  (removal_ok (A:=A) b l -> exists r T1 T2 l', remove T p = Ok (r, T1) /\ remove T (probe_key k) = Ok (r, T2) /\
    reachable b T1 l' /\ reachable b T2 l').
Proof.
  intros Hr Hp E. pose proof (probe_as_key p k Hp E) as Hx. change (forall x, p x = probe_key k x) in Hx.
  pose proof (reachable_size _ _ _ Hr) as Hs. pose proof (probe_key_ok k) as Hk.
  split; [|split].
  - destruct (reachable_step b T l (OGet p) Hr Hp) as (T1 & E1 & _); [done|done|].
    destruct (reachable_step b T l (OGet (probe_key k)) Hr Hk) as (T2 & E2 & _); [done|done|].
    simpl in E1, E2. destruct (get T p) as [[r1 T1']| | | |]; simpl in E1; try done.
    destruct (get T (probe_key k)) as [[r2 T2']| | | |]; simpl in E2; try done.
    injection E1 as -> ->. injection E2 as -> ->. rewrite (spec_get_ext p (probe_key k)) by done. eauto.
  - destruct (reachable_step b T l (OGetMut p f) Hr Hp) as (T1 & E1 & R1); [done|simpl; by rewrite spec_update_length|].
    destruct (reachable_step b T l (OGetMut (probe_key k) f) Hr Hk) as (T2 & E2 & R2); [done|simpl; by rewrite spec_update_length|].
    simpl in E1, E2, R1, R2. destruct (get_mut T p f) as [[r1 T1']| | | |]; simpl in E1; try done.
    destruct (get_mut T (probe_key k) f) as [[r2 T2']| | | |]; simpl in E2; try done.
    injection E1 as -> ->. injection E2 as -> ->. rewrite (spec_get_ext p (probe_key k)) by done.
    rewrite (spec_update_ext p (probe_key k)) in R1 by done. do 4 eexists. eauto.
  - intros Ho.
    destruct (reachable_step b T l (ORemove p) Hr Hp) as (T1 & E1 & R1); [done|simpl; pose proof (spec_remove_length p l); lia|].
    destruct (reachable_step b T l (ORemove (probe_key k)) Hr Hk) as (T2 & E2 & R2); [done|simpl; pose proof (spec_remove_length (probe_key k) l); lia|].
    simpl in E1, E2, R1, R2. destruct (remove T p) as [[r1 T1']| | | |]; simpl in E1; try done.
    destruct (remove T (probe_key k)) as [[r2 T2']| | | |]; simpl in E2; try done.
    injection E1 as -> ->. injection E2 as -> ->. rewrite (spec_get_ext p (probe_key k)) by done.
    rewrite (spec_remove_ext p (probe_key k)) in R1 by done. do 4 eexists. eauto.
Qed.

(** ** Readers *)
Definition reader_fine (T : tree) h t (rd : reader K V) : Prop :=
  probe_ok (rd_probe rd) /\
  match rd with
  | RdStart _ | RdMiss _ => True
  | RdLeaf p id => exists kvs mA mB s1 s2 st, home (A:=A) T h t p id kvs mA mB s1 s2 st
  | RdDone p r => r = Ok (spec_get p (flat t))
  end.

Lemma reader_step_fine rl ri T h t seen rd seen' rd' : 1 <= rl -> InvAt (A:=A) rl ri False T h t ->
  reader_step T seen rd seen' rd' -> reader_fine T h t rd ->
  reader_fine T h t rd' /\ rd_probe rd' = rd_probe rd.
Proof.
  intros Hrl HI Hst [Hp Hf].
  destruct (home_exists rl ri False T h t (rd_probe rd) HI (fun _ => Hp)) as (id & kvs & mA & mB & s1 & s2 & st & Hm).
  destruct Hst as [seen p w id' _ E|seen p w _ E|seen p id' E|seen p id']; cbn [rd_probe] in *; (split; [split; [done|]|done]).
  - destruct (check_cache_ok rl ri False Hrl _ _ _ _ _ _ _ _ _ _ _ w ord_true HI Hm) as [E'|E']; rewrite E in E'; [done|].
    injection E' as ->. exists kvs, mA, mB, s1, s2, st. done.
  - done.
  - rewrite (descend_home _ _ _ _ _ _ _ _ _ _ _ _ _ _ HI Hm) in E. injection E as <-. exists kvs, mA, mB, s1, s2, st. done.
  - destruct Hf as (kvs' & mA' & mB' & s1' & s2' & st' & Hm').
    by apply (find_in_leaf_ok rl ri False _ _ _ _ _ _ _ _ _ _ _ ord_true HI Hp Hm').
Qed.

Lemma readers_fine rl ri T h t st st' : 1 <= rl -> InvAt (A:=A) rl ri False T h t ->
  rtc (readers_step T) st st' -> Forall (reader_fine T h t) st.2 ->
  Forall (reader_fine T h t) st'.2 /\ map rd_probe st'.2 = map rd_probe st.2 /\ (st.1 <> [] -> st'.1 <> []).
Proof.
  intros Hrl HI Hst. induction Hst as [st|st st1 st2 H1 Hst IH]; intros Hf; [done|].
  destruct H1 as [seen seen' i rds rd rd' Hi H1]. cbn [fst snd] in *.
  assert (reader_fine T h t rd) as Hrd by (rewrite Forall_lookup in Hf; by eapply Hf).
  destruct (reader_step_fine rl ri T h t seen rd seen' rd' Hrl HI H1 Hrd) as [Hf' Hp].
  destruct IH as (G1 & G2 & G3).
  { by apply Forall_insert. }
  split; [done|]. split.
  - rewrite G2. change (rd_probe <$> <[i:=rd']> rds = rd_probe <$> rds). rewrite list_fmap_insert. apply list_insert_id. rewrite list_lookup_fmap, Hi. simpl. by rewrite Hp.
  - intros Hne. apply G3. by destruct H1.
Qed.

Lemma readers_progress rl ri T h t seen rd : 1 <= rl -> InvAt (A:=A) rl ri False T h t ->
  seen <> [] -> reader_fine T h t rd -> (forall p r, rd <> RdDone p r) ->
  exists seen' rd', reader_step T seen rd seen' rd'.
Proof.
  intros Hrl HI Hne [Hp _] Hnd.
  destruct (home_exists rl ri False T h t (rd_probe rd) HI (fun _ => Hp)) as (id & kvs & mA & mB & s1 & s2 & st & Hm).
  destruct rd as [p|p|p id'|p r]; cbn [rd_probe] in *; [..|by destruct (Hnd p r)].
  - destruct seen as [|w seen]; [done|].
    destruct (check_cache_ok rl ri False Hrl _ _ _ _ _ _ _ _ _ _ _ w ord_true HI Hm) as [E|E].
    + exists (w :: seen), (RdMiss p). apply (rd_miss _ _ _ w); [by left|done].
    + exists (w :: seen), (RdLeaf p id). apply (rd_hit _ _ _ w); [by left|done].
  - exists (Some id :: seen), (RdLeaf p id). constructor. by apply (descend_home _ _ _ _ _ _ _ _ _ _ _ _ _ _ HI Hm).
  - eexists _, _. constructor.
Qed.

Lemma readers_ok b (T : tree) l w ps seen rds : reachable b T l -> Forall probe_ok ps ->
  rtc (readers_step T) ([w], map RdStart ps) (seen, rds) ->
  map rd_probe rds = ps /\
  (forall i p r, rds !! i = Some (RdDone p r) -> exists o, r = Ok o /\ lookup_is p l o) /\
  (forall i rd, rds !! i = Some rd -> (exists p r, rd = RdDone p r) \/ exists seen' rd', reader_step T seen rd seen' rd').
Proof.
  intros Hr Hps Hst. destruct (reachable_any False b T l Hr) as (ri & h & t & Hlow & _ & HI & <- & Ha & _); [done|].
  destruct (readers_fine (low b) ri T h t _ _ ltac:(lia) HI Hst) as (G1 & G2 & G3).
  { cbn [snd]. apply Forall_map. eapply Forall_impl; [exact Hps|]. intros p Hp. split; done. }
  cbn [fst snd] in *. rewrite Forall_lookup in G1. split_and!.
  - rewrite G2, map_map. apply map_id.
  - intros i p r Hi. destruct (G1 _ _ Hi) as [_ ->]. eexists. split; [done|]. apply spec_get_lookup.
  - intros i rd Hi. destruct rd as [p|p|p id|p r] eqn:Erd; [..|by left; eauto]; right;
      (eapply (readers_progress (low b) ri T h t); [lia|done|by apply G3|by eapply G1|done]).
Qed.
End MapTop.
