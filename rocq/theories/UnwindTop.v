(** Interrupted updates of the trees a program can hold. *)
From stdpp Require Import list relations.
From Verif Require Import Base Slots LeafNode InnerNode Store Tree Readers Remove Iterators Observe Unwind SlotLemmas Spec Contents AnySpec Order Logical InvLemmas
  History ContentsProof HistTop AugTop MapTop Lookup IterProof AnyHist AnyProof UnwindSpec UnwindProof UnwindSafe UnwindExact.

Section Top.
Context {K V A : Type} {KO : KeyOps K} {PF : Profile} {OL : OrdLaws K} {AO : AugOps K V A}.
Notation tree := (tree K V A).

Lemma insert_unwind_ok b (T : tree) l n k v : reachable b T l -> (N.of_nat (S (length l)) < 2 ^ 64)%N ->
  (exists r T' m, u_insert n T k v = Ok (Fin (r, T') m) /\ insert T k v = Ok (r, T')) \/
  (exists T' l' a lost c, u_insert n T k v = Ok (Unw T') /\ t_len T' = length l /\
    insert_is k v l l' /\ l' = a ++ lost ++ c /\ ((exists v', lookup_is (probe_key k) l (Some v')) -> lost = []) /\
    forall p w, probe_ok p -> exists o w', get (recached T' w) p = Ok (o, recached T' w') /\
      (lookup_is p (a ++ c) o \/ w <> None /\ lookup_is p l' o)).
Proof.
  intros Hr Hlen. pose proof Hr as Hr0.
  destruct (reachable_any False b T l Hr) as (ri & h & t & Hlow & Hri & HI & <- & Ha & _ & Hh); [done|].
  pose proof (inv_len _ _ _ _ _ _ HI) as Hln.
  pose proof (u_insert_agrees n T k v) as Hag.
  destruct (insert_effect_ok b T (flat t) k v Hr Hlen) as (r & T2 & l' & Hins & _ & _ & Hspec).
  destruct (u_insert n T k v) as [[[r' T'] m|T']| | | |] eqn:Hu; simpl in Hag; [| |by destruct (Hag (r, T2))..].
  - left. exists r', T', m. split; [done|]. done.
  - right.
    destruct (u_insert_get (low b) ri ltac:(lia) Hri T h t k v n T' ltac:(lia) ord_true HI ltac:(lia) Hu)
      as (a & lost & c & E & Hlost & Hl & Hget).
    exists T', (a ++ lost ++ c), a, lost, c. split_and!; [done|lia| |done| |].
    + rewrite <- E. by apply spec_insert_is.
    + intros (v' & Hv). apply Hlost. intros E'. pose proof (spec_get_lookup (probe_key k) (flat t)) as Hs. rewrite E' in Hs.
      simpl in Hs, Hv. destruct Hv as (k' & Hk & Hk'). by destruct (Hs _ _ Hk).
    + intros p w Hp. destruct (Hget p w Hp) as (o & w' & G & Ho). exists o, w'. split; [done|].
      destruct Ho as [->|[Hw ->]]; [left|right; split; [done|]]; apply spec_get_lookup.
Qed.

Lemma remove_unwind_ok b (T : tree) l n p : reachable b T l -> removal_ok (A:=A) b l -> probe_ok p ->
  (exists r T' m, u_remove n T p = Ok (Fin (r, T') m) /\ remove T p = Ok (r, T')) \/
  (exists T', u_remove n T p = Ok (Unw T') /\
    (0 < n \/ leaf_merges T' = leaf_merges T ->
     forall q w, exists o w', get (recached T' w) q = Ok (o, recached T' w') /\ get_any q l o) /\
    (n = 0 -> leaf_merges T' <> leaf_merges T ->
     exists a lost c, l = a ++ lost ++ c /\ lost <> [] /\
       forall k v, (k, v) ∈ lost -> get (recached T' None) (probe_key k) = UB)).
Proof.
  intros Hr Hrem Hp. pose proof (reachable_size _ _ _ Hr) as Hsize.
  destruct (reachable_any False b T l Hr) as (ri & h & t & Hlow & Hri & HI & <- & Ha & Hof & Hh); [done|].
  pose proof (u_remove_agrees n T p) as Hag.
  destruct (remove_effect_ok b T (flat t) p Hr Hrem Hp) as (r & T2 & l' & Hre & _).
  destruct (u_remove n T p) as [[[r' T'] m|T']| | | |] eqn:Hu; simpl in Hag; [| |by destruct (Hag (r, T2))..].
  - left. exists r', T', m. done.
  - right. exists T'. split; [done|]. destruct Hrem as [Ho Hd]. rewrite (Hof Ho) in HI. split.
    + intros Hn. apply (u_remove_get_exact (low b) (low b) ltac:(lia) ltac:(lia) ltac:(lia) T h t n p T' HI (fun _ => Hp)).
      * by rewrite (inv_len _ _ _ _ _ _ HI).
      * by apply (any_height (low b) (low b) ltac:(lia) ltac:(lia) T h t HI).
      * done.
      * intros ->. destruct Hn as [Hn|Hn]; [lia|exact Hn].
    + intros -> Hne. apply (u_remove_ub (low b) (low b) ltac:(lia) T h t p T' HI Hu Hne).
Qed.
End Top.

Section Any.
Context {K V A : Type} {KO : KeyOps K} {PF : Profile} {AO : AugOps K V A}.
Lemma runs_any_length (l : list (K * V)) ops rs l' : runs_any l ops rs l' -> length l' <= length l + inserts ops.
Proof.
  induction 1 as [|l o r l1 ops rs l2 Hs Hr IH]; [simpl; lia|].
  pose proof (step_any_length _ _ _ _ ops Hs). lia.
Qed.
Lemma remove_unwind_any b l0 ops rs (T T' : tree K V A) l n p : any_legal (A:=A) b l0 (ops ++ [ORemove p]) ->
  exec b ops = Ok (rs, T) -> entries T = Ok l -> u_remove n T p = Ok (Unw T') ->
  0 < n \/ leaf_merges T' = leaf_merges T ->
  forall q w, exists o w', get (recached T' w) q = Ok (o, recached T' w') /\ get_any q l o.
Proof.
  intros [Hb Hn Ho Hd] He El Hu Hm.
  assert (Exists is_remove (ops ++ [ORemove p])) as Hrm by (apply Exists_app; right; by left).
  assert (inserts (ops ++ [ORemove p]) = inserts ops) as Ein by (clear; induction ops as [|[] ops IH]; simpl; congruence).
  rewrite Ein in *. assert (1 <= low b <= 16) as Hlow by (destruct b; simpl; lia).
  destruct (begin_any (OM:=om_false) (OI:=ord_if_false K KO) (fun x => x) b (low b) l0 Hb ltac:(lia) (fun _ => Ho Hrm))
    as (T0 & h0 & t0 & E & HI & <-).
  destruct (run_any_ok (OM:=om_false) (OI:=ord_if_false K KO) (fun x => x) (low b) (low b) Hlow ltac:(lia) T0 h0 t0 ops HI ltac:(lia)
    (fun _ => Hd Hrm) Hn) as (rs' & T1 & h & t & E' & HI' & H).
  unfold exec in He. rewrite E, obind_Ok, E' in He. injection He as _ ->.
  rewrite (entries_ok (OM:=om_false) (low b) (low b) False ltac:(lia) T h t HI') in El. injection El as <-.
  pose proof (runs_any_length _ _ _ _ H) as Hlen.
  apply (u_remove_get_exact (OM:=om_false) (OI:=ord_if_false K KO) (low b) (low b) ltac:(lia) ltac:(lia) ltac:(lia) T h t n p T' HI').
  - by intros [].
  - rewrite (inv_len _ _ _ _ _ _ HI'). lia.
  - apply (any_height (OM:=om_false) (low b) (low b) ltac:(lia) ltac:(lia) T h t HI').
    destruct (Hd Hrm) as [?|?]; [by left|right; lia].
  - done.
  - intros ->. destruct Hm as [?|Hm]; [lia|exact Hm].
Qed.
End Any.
