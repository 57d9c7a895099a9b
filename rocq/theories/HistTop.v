(** The statements of the property files, derived from the invariant. *)
From stdpp Require Import list sorting.
From Verif Require Import Base Slots BinSearch LeafNode InnerNode Store Tree Remove Iterators Observe
  BulkLoad History SlotLemmas NodeLemmas Spec AugSpec Order Logical Descent InsertProof InvLemmas InsertTop
  RemoveLeaf RemoveInner RemoveProof RemoveTop Lookup IterProof IntoProof BulkProof BulkTop HistProof.

Section HistTop.
Context {K V A : Type} {KO : KeyOps K} {PF : Profile} {OL : OrdLaws K} {AO : AugOps K V A}.
Notation op := (op K V).
Notation tree := (tree K V A).
Notation legal := (legal (K:=K) (V:=V) (A:=A)).

Lemma probe_key_legal (k : K) : probe_ok (probe_key k).
Proof. apply probe_key_ok. Qed.

(** The invariant of the trees built from [b]: the sizes it guarantees. *)
Definition low (b : start K V) : nat := match b with SNew => 16 | _ => 1 end.

Lemma begin_ok SYNC b ri : start_ok b -> ri <= low b -> (1 <= ri -> orphan_free (length (spec_begin b))) ->
  exists (T : tree) h t, begin b = Ok T /\ InvAt (low b) ri SYNC T h t /\ flat t = spec_begin b.
Proof.
  intros Hb Hri Ho. destruct b as [|data|data]; cbn [begin spec_begin low start_ok] in *.
  - exists tree_new, 0, (TLeaf 0 []). split; [done|]. split; [|done]. apply new_inv; lia.
  - apply bulk_load_ok; try done. intros ->. apply Ho. lia.
  - apply from_iter_ok; try done. intros ->. apply Ho. lia.
Qed.

Lemma exec_inv (SYNC : Prop) b ops ri : legal b ops -> ri <= low b ->
  (1 <= ri -> orphan_free (length (spec_begin b))) ->
  (Exists is_remove ops -> 1 <= ri) ->
  (SYNC -> Exists is_write ops -> key_aug (K:=K) (V:=V) (A:=A)) ->
  exists (T : tree) h t, exec b ops = Ok ((spec_exec b ops).1, T) /\ InvAt (low b) ri SYNC T h t /\
    flat t = (spec_exec b ops).2.
Proof.
  intros [Hb Ho Hs Hr Hd] Hri Hof Hrm Hw.
  destruct (begin_ok SYNC b ri Hb Hri Hof) as (T & h & t & E & HI & Hf).
  assert (1 <= low b <= 16) as Hlow by (destruct b; simpl; lia).
  destruct (run_ok (low b) ri SYNC Hlow ltac:(lia) T h t ops HI) as (T' & h' & t' & E' & HI' & Hf').
  - rewrite Forall_forall in Ho |- *. intros o Hin. split_and!.
    + by apply Ho.
    + intros Hor. assert (Exists is_remove ops) as Hex by (apply Exists_exists; by exists o).
      by apply Hrm.
    + intros HS How. apply Hw; [done|]. apply Exists_exists. by exists o.
  - by rewrite Hf.
  - by rewrite Hf.
  - exists T', h', t'. unfold exec, spec_exec. rewrite E, obind_Ok. rewrite Hf in E', Hf'. done.
Qed.

Lemma sortedm_elems (l : list (K * option V)) : sortedm l -> ascending (elems l).
Proof.
  unfold ascending. induction l as [|[k [v|]] l IH]; intros H; [constructor| |].
  - apply sortedm_cons in H as [H1 H2]. simpl. constructor; [by apply IH|].
    rewrite Forall_forall in H2. apply Forall_forall. intros [k' v'] Hin. apply elem_of_elems in Hin. specialize (H2 _ Hin).
    unfold ltm in H2. simpl in *. destruct (kcmp k k'); [by destruct H2|done|done].
  - apply sortedm_cons in H as [H1 H2]. by apply IH.
Qed.
Lemma inv_ascending rl ri SYNC T h t : InvAt (A:=A) rl ri SYNC T h t -> ascending (flat t).
Proof. intros HI. rewrite <- elems_trav. by apply sortedm_elems, (inv_sorted _ _ _ _ _ _ HI). Qed.

Lemma no_orphan_dec n : no_orphan n \/ ~ no_orphan n.
Proof.
  induction n as [n IH] using lt_wf_ind. destruct (decide (n = 1)) as [->|H1]; [left; constructor|].
  destruct (decide (2 <= n)) as [H2|H2]; [|right; intros H; inversion H; lia].
  destruct (decide (n mod 65 = 1)) as [H3|H3]; [right; intros H; inversion H; (lia || done)|].
  destruct (IH ((n + 64) / 65)) as [H|H].
  - apply Nat.div_lt_upper_bound; lia.
  - left. by constructor.
  - right. intros H'. inversion H'; (lia || done).
Qed.

(** Some legal choice of the inner minimum exists. *)
Definition low_inner (b : start K V) (ops : list op) (ri : nat) : Prop :=
  ri <= low b /\ (1 <= ri -> orphan_free (length (spec_begin b))) /\ (Exists is_remove ops -> 1 <= ri).

Lemma low_inner_exists b ops : legal b ops -> exists ri, low_inner b ops ri.
Proof.
  intros [_ _ _ Hr _]. assert (Exists is_remove ops \/ ~ Exists is_remove ops) as [Hd|Hd].
  { clear Hr. induction ops as [|o ops IH]; [right; by intros ?%Exists_nil|].
    rewrite Exists_cons. destruct o; simpl; tauto. }
  - pose proof (Hr Hd) as Ho. exists (low b). split_and!; try done. intros _. destruct b; simpl; lia.
  - exists 0. split_and!; [lia|lia|done].
Qed.
Lemma low_inner_free b ops : orphan_free (length (spec_begin b)) -> low_inner b ops (low b).
Proof. intros H. split_and!; try done. intros _. destruct b; simpl; lia. Qed.

Lemma history_ok b (ops : list op) : legal b ops ->
  exists T, exec (A:=A) b ops = Ok ((spec_exec b ops).1, T) /\ entries T = Ok (spec_exec b ops).2.
Proof.
  intros Hl. destruct (low_inner_exists b ops Hl) as (ri & L1 & L2 & L3).
  destruct (exec_inv False b ops ri Hl L1 L2 L3) as (T & h & t & E & HI & Hf); [done|].
  exists T. split; [done|]. assert (1 <= low b) as Hlow by (destruct b; simpl; lia).
  rewrite (entries_ok _ ri False Hlow T h t HI). by rewrite Hf.
Qed.

(** ** Histories that may stop, but did not *)
Lemma legal_proper b (ops : list op) : legal b ops -> proper (A:=A) b ops.
Proof. by intros [? ? ? ? ?]. Qed.
Lemma orphan_free_dec n : orphan_free n \/ ~ orphan_free n.
Proof.
  unfold orphan_free. destruct (decide (n = 0)); [by left; left|].
  destruct (no_orphan_dec ((n + 63) / 64)) as [H|H]; [by left; right|]. right. by intros [?|?].
Qed.
Lemma proper_legal b (ops : list op) : proper (A:=A) b ops -> orphan_free (length (spec_begin b)) -> legal b ops.
Proof. by intros [? ? ? ?] ?. Qed.

Lemma step_ret (SYNC : Prop) (T : tree) h t o r T' : InvAt 1 0 SYNC T h t -> op_ok o -> (is_remove o -> drop_ok (A:=A) (flat t)) ->
  (SYNC -> is_write o -> key_aug (K:=K) (V:=V) (A:=A)) -> (N.of_nat (t_len T) < 2 ^ 64)%N -> step T o = Ok (r, T') ->
  exists h' t', r = (spec_step (flat t) o).1 /\ InvAt 1 0 SYNC T' h' t' /\ flat t' = (spec_step (flat t) o).2.
Proof.
  intros HI Ho Hd Hw Hlen E. assert (is_remove o \/ ~ is_remove o) as [Hr|Hr] by (destruct o; simpl; tauto).
  - destruct o as [|p| | | | | | | | | | | ]; try done. cbn [step] in E.
    destruct (remove_gen 1 0 SYNC ltac:(lia) ltac:(lia) T h t p HI (fun _ => Ho) Hlen (drop_height 1 0 SYNC ltac:(lia) ltac:(lia) T h t HI (Hd I)))
      as [(_ & _ & j & _ & E')|(x & T1 & h1 & t1 & E' & HI' & _ & _ & Hs & _)]; rewrite E' in E.
    + rewrite stuck_bind in E. unfold stuck in E. by destruct j, dev.
    + rewrite obind_Ok in E. injection E as <- <-. destruct (Hs ord_true) as [-> E2]. by exists h1, t1.
  - destruct (step_ok 1 0 SYNC ltac:(lia) ltac:(lia) T h t o HI) as (T1 & h1 & t1 & E1 & HI1 & E2); try done.
    rewrite E in E1. injection E1 as -> ->. by exists h1, t1.
Qed.

Lemma run_ret (SYNC : Prop) ops : forall (T : tree) h t rs T', InvAt 1 0 SYNC T h t -> Forall op_ok ops -> fits (flat t) ops ->
  drops_ok (A:=A) (flat t) ops -> (SYNC -> Exists is_write ops -> key_aug (K:=K) (V:=V) (A:=A)) -> run T ops = Ok (rs, T') ->
  exists h' t', rs = (spec_run (flat t) ops).1 /\ InvAt 1 0 SYNC T' h' t' /\ flat t' = (spec_run (flat t) ops).2.
Proof.
  induction ops as [|o ops IH]; intros T h t rs T' HI Hf Hlen Hdr Hw; cbn [run spec_run].
  { intros [= <- <-]. by exists h, t. }
  apply Forall_cons in Hf as [Ho Hf]. destruct Hlen as [Hlen Hrest]. destruct Hdr as [Hd Hdr].
  destruct (step T o) as [[r T1]| | | |] eqn:E; try done. rewrite obind_Ok.
  rewrite <- (inv_len _ _ _ _ _ _ HI) in Hlen.
  destruct (step_ret SYNC T h t o r T1 HI Ho Hd) as (h1 & t1 & -> & HI1 & E1); [|done|done|].
  { intros HS Hwo. apply Hw; [done|]. by left. }
  destruct (run T1 ops) as [[rs' T2]| | | |] eqn:E2; try done. rewrite obind_Ok. intros [= <- <-].
  rewrite <- E1 in Hrest, Hdr. destruct (IH T1 h1 t1 rs' T2 HI1 Hf Hrest Hdr) as (h' & t' & -> & HI' & E'); [|done|].
  { intros HS Hwo. apply Hw; [done|]. by right. }
  exists h', t'. rewrite E1 in *. destruct (spec_step (flat t) o) as [r' l]. cbn [fst snd] in *.
  by destruct (spec_run l ops).
Qed.

(** What is known of a reachable tree, with and without [orphan_free]. *)
Lemma exec_ret (SYNC : Prop) b ops rs T : proper b ops -> exec b ops = Ok (rs, T) ->
  (SYNC -> Exists is_write ops -> key_aug (K:=K) (V:=V) (A:=A)) ->
  exists ri h t, 1 <= low b <= 16 /\ ri <= 16 /\ InvAt (A:=A) (low b) ri SYNC T h t /\
    flat t = (spec_exec b ops).2 /\ ascending (flat t) /\
    (orphan_free (length (spec_begin b)) -> ri = low b) /\ rs = (spec_exec b ops).1.
Proof.
  intros Hp E Hw. assert (1 <= low b <= 16) as Hlow by (destruct b; simpl; lia).
  destruct (orphan_free_dec (length (spec_begin b))) as [Ho|Ho].
  - pose proof (proper_legal b ops Hp Ho) as Hl. destruct (low_inner_free b ops Ho) as (L1 & L2 & L3).
    destruct (exec_inv SYNC b ops (low b) Hl L1 L2 L3 Hw) as (T' & h & t & E' & HI & Hf).
    rewrite E in E'. injection E' as -> ->. exists (low b), h, t. split_and!; try done; try lia.
    apply (inv_ascending _ _ _ _ _ _ HI).
  - destruct Hp as [P1 P2 P3 P4]. destruct (begin_ok SYNC b 0 P1 ltac:(lia) ltac:(lia)) as (T0 & h & t & E0 & HI & Hfl).
    assert (low b = 1) as El by (destruct b; [destruct Ho; by left|done|done]). rewrite El in *.
    unfold exec in E. rewrite E0, obind_Ok in E. rewrite <- Hfl in P3, P4.
    destruct (run_ret SYNC ops T0 h t rs T HI P2 P3 P4 Hw E) as (h' & t' & Er & HI' & Ef). rewrite Hfl in Er, Ef.
    exists 0, h', t'. split_and!; try done; try lia. apply (inv_ascending _ _ _ _ _ _ HI').
Qed.
Lemma exec_inv_any (SYNC : Prop) b ops rs T : proper b ops -> exec b ops = Ok (rs, T) ->
  (SYNC -> Exists is_write ops -> key_aug (K:=K) (V:=V) (A:=A)) ->
  exists ri h t, 1 <= low b <= 16 /\ ri <= 16 /\ InvAt (A:=A) (low b) ri SYNC T h t /\
    flat t = (spec_exec b ops).2 /\ ascending (flat t) /\
    (orphan_free (length (spec_begin b)) -> ri = low b).
Proof.
  intros Hp E Hw. destruct (exec_ret SYNC b ops rs T Hp E Hw) as (ri & h & t & H1 & H2 & H3 & H4 & H5 & H6 & _).
  by exists ri, h, t.
Qed.

Lemma reachable_any (SYNC : Prop) b T l : reachable b T l -> (SYNC -> key_aug (K:=K) (V:=V) (A:=A)) ->
  exists ri h t, 1 <= low b <= 16 /\ ri <= 16 /\ InvAt (A:=A) (low b) ri SYNC T h t /\ flat t = l /\ ascending l /\
    (orphan_free (length (spec_begin b)) -> ri = low b) /\ h <= MAX_DEPTH.
Proof.
  intros (ops & rs & Hl & E & <-) Hk.
  destruct (exec_inv_any SYNC b ops rs T Hl E) as (ri & h & t & H1 & H2 & H3 & H4 & H5 & H6); [auto|].
  exists ri, h, t. rewrite <- H4. split_and!; try done; try lia.
  eapply height_bound; [apply H3|]. rewrite H4. apply fits_end, Hl.
Qed.

(** One more call. *)
Lemma exec_step b ops rs (T : tree) o (l := (spec_exec b ops).2) : proper b ops -> exec b ops = Ok (rs, T) -> op_ok o ->
  (is_remove o -> removal_ok (A:=A) b l) -> (N.of_nat (length (spec_step l o).2) < 2 ^ 64)%N ->
  exists T' rs', step T o = Ok ((spec_step l o).1, T') /\ proper b (ops ++ [o]) /\
    exec b (ops ++ [o]) = Ok (rs', T') /\ (spec_exec b (ops ++ [o])).2 = (spec_step l o).2.
Proof.
  subst l. intros Hl E Ho Hr Hn.
  destruct (exec_ret False b ops rs T Hl E ltac:(done)) as (ri & h & t & Hlow & Hri & HI & Hf & _ & Hof & ->).
  assert (proper b (ops ++ [o])) as Hl'.
  { destruct Hl as [L1 L2 L3 L5]. split; [done| | |].
    - apply Forall_app. split; [done|]. by constructor.
    - apply fits_app; [done|]. split; [by apply fits_end|]. split; [done|done].
    - apply drops_app; [done|]. split; [|done]. intros Ho'. by apply Hr. }
  assert (N.of_nat (t_len T) < 2 ^ 64)%N as Hlen.
  { rewrite (inv_len _ _ _ _ _ _ HI), Hf. apply fits_end, Hl. }
  destruct (step_ok (low b) ri False ltac:(lia) ltac:(lia) T h t o HI) as (T' & h' & t' & Es & _ & _).
  - split; [done|]. split; [|done]. intros Hro. rewrite (Hof (proj1 (Hr Hro))). lia.
  - intros Hro. rewrite Hf. by apply Hr.
  - done.
  - rewrite Hf in Es. exists T'. eexists. split; [done|]. split; [done|]. split.
    + unfold exec in *. destruct (begin b) as [T0| | | |]; try done. rewrite obind_Ok in *.
      rewrite run_app, E, obind_Ok. cbn [run]. by rewrite Es.
    + unfold spec_exec. rewrite spec_run_app. cbn [spec_run]. by destruct (spec_step _ o).
Qed.
Lemma reachable_step b (T : tree) l o : reachable b T l -> op_ok o ->
  (is_remove o -> removal_ok (A:=A) b l) -> (N.of_nat (length (spec_step l o).2) < 2 ^ 64)%N ->
  exists T', step T o = Ok ((spec_step l o).1, T') /\ reachable b T' (spec_step l o).2.
Proof.
  intros (ops & rs & Hl & E & <-) Ho Hr Hn.
  destruct (exec_step b ops rs T o Hl E Ho Hr Hn) as (T' & rs' & Es & Hl' & E' & El).
  exists T'. split; [done|]. by exists (ops ++ [o]), rs'.
Qed.
End HistTop.
