(** Every history runs, whatever the comparison does. *)
From stdpp Require Import list sorting relations.
From Verif Require Import Base Slots BinSearch LeafNode InnerNode Store Tree Readers Remove Iterators Observe Cursor
  BulkLoad History SlotLemmas NodeLemmas Spec AugSpec AnySpec AnyHist Order Logical Descent InsertProof InvLemmas InsertTop
  RemoveLeaf RemoveInner RemoveProof RemoveTop Lookup IterProof IntoProof BulkProof HistTop.

Section AnyProof.
Context {K V A : Type} {KO : KeyOps K} {PF : Profile} {OM : OrdMode} {OI : OrdIf K} {AO : AugOps K V A} (HF : ~ ORD).
Notation tr := (tr K V).
Notation tree := (tree K V A).
Notation op := (op K V).
Notation any_legal := (any_legal (K:=K) (V:=V) (A:=A)).

Lemma runs_dedup (l : list (K * V)) : dedup_keep_last None l = last_of_runs l.
Proof.
  clear. destruct l as [|x l]; [done|]. cbn [dedup_keep_last]. revert x. induction l as [|y l IH]; intros x; [done|].
  cbn [dedup_keep_last]. unfold same_key. cbn [last_of_runs]. destruct (kcmp x.1 y.1); rewrite IH; done.
Qed.
Lemma runs_nonnil (x : K * V) l : last_of_runs (x :: l) <> [].
Proof.
  clear. revert x. induction l as [|y l IH]; intros x; [done|]. cbn [last_of_runs]. destruct (kcmp x.1 y.1); [apply IH|done|done].
Qed.

Lemma begin_any b ri l0 : start_any b = Some l0 -> ri <= low b -> (1 <= ri -> orphan_free (length l0)) ->
  exists (T : tree) h t, begin b = Ok T /\ InvAt (low b) ri False T h t /\ flat t = l0.
Proof.
  intros Hb Hri Ho. destruct b as [|data|data]; cbn [begin start_any low] in *; [| |done]; injection Hb as <-.
  - exists tree_new, 0, (TLeaf 0 []). split; [done|]. split; [|done]. apply new_inv; lia.
  - destruct data as [|x data].
    { exists tree_new, 0, (TLeaf 0 []). split; [done|]. split; [|done]. apply new_inv; lia. }
    pose proof (runs_nonnil x data) as Hn.
    destruct (bulk_items_ok (A:=A) ri False Hri (last_of_runs (x :: data))) as (s & nodes & c & s' & root & T & h & t & E1 & E2 & E3 & HI & Hf & _).
    { by intros ?%HF. } { done. }
    { intros ->. destruct (Ho ltac:(lia)) as [E0|E0]; [|done]. by destruct (last_of_runs (x :: data)). }
    exists T, h, t. split; [|done]. unfold bulk_load. rewrite runs_dedup. rewrite E1, obind_Ok, E2, obind_Ok. done.
Qed.

Section Run.
Context (rl ri : nat) (Hrl : 1 <= rl <= 16) (Hri : ri <= 16).
Notation InvAt := (InvAt (A:=A) rl ri False).

Lemma any_height T h t : InvAt T h t -> aug_needs_drop (K:=K) (V:=V) (A:=A) = false \/ length (flat t) < 272 ->
  aug_needs_drop (K:=K) (V:=V) (A:=A) = false \/ h <= 1.
Proof.
  intros HI [?|Hl]; [by left|]. right. destruct h as [|[|h]]; [lia|lia|]. exfalso.
  pose proof (root_size rl ri (S h) t (inv_shape _ _ _ _ _ _ HI)) as Hs. rewrite Nnat.Nat2N.inj_succ, N.pow_succ_r' in Hs.
  assert (1 <= 17 ^ N.of_nat h)%N by (apply N.lt_pred_le, N.neq_0_lt_0, N.pow_nonzero; done). lia.
Qed.

Lemma step_any_ok T h t (o : op) : InvAt T h t -> (is_remove o -> 1 <= ri) ->
  (is_remove o -> aug_needs_drop (K:=K) (V:=V) (A:=A) = false \/ length (flat t) < 272) ->
  (N.of_nat (length (flat t)) < 2 ^ 64)%N ->
  exists r T' h' t', step T o = Ok (r, T') /\ InvAt T' h' t' /\ step_any (flat t) o r (flat t').
Proof.
  intros HI Hrm Hd0 Hlen. assert (1 <= rl) as Hrl1 by lia. assert (rl <= 16) as Hrl2 by lia.
  rewrite <- (inv_len _ _ _ _ _ _ HI) in Hlen.
  assert (forall p : probe K, ORD -> probe_ok p) as Hp by (intros p HO; by apply HF in HO).
  destruct o as [k v|p|p|p f| | | | | | | | |c]; cbn [step step_any].
  - destruct (insert_any rl ri False Hrl2 Hri T h t k v HI Hlen) as (o & T' & h' & t' & -> & HI' & E & _).
    eexists _, T', h', t'. eauto.
  - pose proof (Hrm I) as Hri1. pose proof (any_height T h t HI (Hd0 I)) as Hd.
    destruct (remove_any rl ri False Hrl2 (conj Hri1 Hri) T h t p HI (Hp p) Hlen Hd) as (o & T' & h' & t' & -> & HI' & _ & E & _).
    eexists _, T', h', t'. eauto.
  - destruct (get_any_ok rl ri False Hrl1 T h t p HI (Hp p)) as (o & c & E & HI' & Hg & _). rewrite E.
    eexists _, _, h, t. eauto 8.
  - destruct (get_mut_any_ok rl ri False Hrl1 T h t p f HI (Hp p)) as (o & T' & t' & -> & HI' & E); [done|].
    eexists _, T', h, t'. eauto.
  - rewrite (first_ok rl ri False Hrl1 T h t HI). by eexists _, T, h, t.
  - rewrite (last_ok rl ri False Hrl1 T h t HI). by eexists _, T, h, t.
  - eexists _, T, h, t. by rewrite (inv_len _ _ _ _ _ _ HI).
  - eexists _, T, h, t. split; [done|]. split; [done|]. rewrite (is_empty_ok rl ri False T h t HI).
    eexists. split; [done|]. split; [|done]. destruct (flat t); by split.
  - eexists _, T, h, t. by rewrite (entries_ok rl ri False Hrl1 T h t HI).
  - eexists _, T, h, t. by rewrite (entries_rev_ok rl ri False Hrl1 T h t HI).
  - rewrite (clear_ok rl ri False Hrl1 T h t HI). eexists _, _, 0, _. split; [done|]. split; [by apply new_inv|done].
  - rewrite (tree_clone_ok rl ri False Hrl1 T h t HI). by eexists _, T, h, t.
  - eexists _, _, h, t. split; [done|]. split; [|done]. by apply inv_cache.
Qed.

Lemma step_any_length l (o : op) r l' ops : step_any l o r l' -> length l' + inserts ops <= length l + inserts (o :: ops).
Proof.
  clear. intros H. destruct o as [k v|p|p|p f| | | | | | | | |c]; cbn [step_any inserts] in *.
  - destruct H as ([x|] & _ & H); simpl in H; [destruct H as (a & k' & b & -> & _ & ->)|destruct H as (a & b & -> & ->)];
      rewrite !app_length; simpl; lia.
  - destruct H as ([x|] & _ & H); simpl in H; [destruct H as (a & k' & b & -> & _ & ->)|subst]; rewrite ?app_length; simpl; lia.
  - destruct H as (? & _ & _ & ->). lia.
  - destruct H as ([x|] & _ & H); simpl in H; [destruct H as (a & k' & b & -> & _ & ->)|subst]; rewrite ?app_length; simpl; lia.
  - destruct H as [_ ->]. lia.
  - destruct H as [_ ->]. lia.
  - destruct H as [_ ->]. lia.
  - destruct H as (? & _ & _ & ->). lia.
  - destruct H as [_ ->]. lia.
  - destruct H as [_ ->]. lia.
  - destruct H as [_ ->]. simpl. lia.
  - destruct H as [_ ->]. lia.
  - destruct H as [_ ->]. lia.
Qed.

Lemma run_any_ok T h t ops : InvAt T h t -> (Exists is_remove ops -> 1 <= ri) ->
  (Exists is_remove ops -> aug_needs_drop (K:=K) (V:=V) (A:=A) = false \/ length (flat t) + inserts ops < 272) ->
  (N.of_nat (length (flat t) + inserts ops) < 2 ^ 64)%N ->
  exists rs T' h' t', run T ops = Ok (rs, T') /\ InvAt T' h' t' /\ runs_any (flat t) ops rs (flat t').
Proof.
  revert T h t. induction ops as [|o ops IH]; intros T h t HI Hr Hd Hn; cbn [run].
  { eexists _, T, h, t. split; [done|]. split; [done|]. constructor. }
  destruct (step_any_ok T h t o HI) as (r & T1 & h1 & t1 & -> & HI1 & H1).
  { intros Ho. apply Hr. by left. }
  { intros Ho. destruct Hd as [Hd|Hd]; [by left|by left|right; lia]. }
  { lia. }
  rewrite obind_Ok. pose proof (step_any_length _ _ _ _ ops H1) as Hl.
  destruct (IH T1 h1 t1 HI1) as (rs & T' & h' & t' & -> & HI' & H2).
  { intros Ho. apply Hr. by right. }
  { intros Ho. destruct Hd as [Hd|Hd]; [by right|by left|right; lia]. }
  { lia. }
  rewrite obind_Ok. eexists _, T', h', t'. split; [done|]. split; [done|]. by econstructor.
Qed.

(** Calls that may stop, but did not. *)
Lemma step_any_ret T h t o r T' : InvAt T h t ->
  (is_remove o -> aug_needs_drop (K:=K) (V:=V) (A:=A) = false \/ length (flat t) < 272) ->
  (N.of_nat (length (flat t)) < 2 ^ 64)%N -> step T o = Ok (r, T') ->
  exists h' t', InvAt T' h' t' /\ step_any (flat t) o r (flat t').
Proof.
  intros HI Hd Hlen E. assert (is_remove o \/ ~ is_remove o) as [Hr|Hr] by (destruct o; simpl; tauto).
  - destruct o as [|p| | | | | | | | | | | ]; try done. rewrite <- (inv_len _ _ _ _ _ _ HI) in Hlen. cbn [step] in E.
    destruct (remove_gen rl ri False ltac:(lia) ltac:(lia) T h t p HI (fun o => match HF o with end) Hlen (any_height T h t HI (Hd I)))
      as [(_ & _ & j & _ & E')|(x & T1 & h1 & t1 & E' & HI' & _ & Hx & _)]; rewrite E' in E.
    + rewrite stuck_bind in E. unfold stuck in E. by destruct j, dev.
    + rewrite obind_Ok in E. injection E as <- <-. exists h1, t1. cbn [step_any]. eauto.
  - destruct (step_any_ok T h t o HI) as (r1 & T1 & h1 & t1 & E1 & HI1 & H1); try done.
    rewrite E in E1. injection E1 as <- <-. eauto.
Qed.
Lemma run_any_ret ops : forall T h t rs T', InvAt T h t ->
  (Exists is_remove ops -> aug_needs_drop (K:=K) (V:=V) (A:=A) = false \/ length (flat t) + inserts ops < 272) ->
  (N.of_nat (length (flat t) + inserts ops) < 2 ^ 64)%N -> run T ops = Ok (rs, T') ->
  exists h' t', InvAt T' h' t' /\ runs_any (flat t) ops rs (flat t').
Proof.
  induction ops as [|o ops IH]; intros T h t rs T' HI Hd Hn; cbn [run].
  { intros [= <- <-]. exists h, t. split; [done|]. constructor. }
  destruct (step T o) as [[r T1]| | | |] eqn:E; try done. rewrite obind_Ok.
  destruct (step_any_ret T h t o r T1 HI) as (h1 & t1 & HI1 & H1); [|lia|done|].
  { intros Ho. destruct Hd as [Hd|Hd]; [by left|by left|right; lia]. }
  pose proof (step_any_length _ _ _ _ ops H1) as Hl.
  destruct (run T1 ops) as [[rs' T2]| | | |] eqn:E2; try done. rewrite obind_Ok. intros [= <- <-].
  destruct (IH T1 h1 t1 rs' T2 HI1) as (h' & t' & HI' & H2); [|lia|done|].
  { intros Ho. destruct Hd as [Hd|Hd]; [by right|by left|right; lia]. }
  exists h', t'. split; [done|]. by econstructor.
Qed.
End Run.

Lemma exec_any_ret b l0 (ops : list op) rs (T : tree) : any_proper (A:=A) b l0 ops -> exec b ops = Ok (rs, T) ->
  exists h t, 1 <= low b /\ InvAt (low b) 0 False T h t /\ runs_any l0 ops rs (flat t).
Proof.
  intros [Hb Hn Hd] Ex. assert (1 <= low b <= 16) as Hlow by (destruct b; simpl; lia).
  destruct (begin_any b 0 l0 Hb ltac:(lia) ltac:(lia)) as (T0 & h0 & t0 & E & HI & <-).
  unfold exec in Ex. rewrite E, obind_Ok in Ex.
  destruct (run_any_ret (low b) 0 Hlow ltac:(lia) ops T0 h0 t0 rs T HI Hd Hn Ex) as (h & t & HI' & H).
  exists h, t. split; [lia|done].
Qed.

Lemma exec_any_inv b l0 (ops : list op) : any_legal b l0 ops ->
  exists rs (T : tree) ri h t, exec b ops = Ok (rs, T) /\ 1 <= low b <= 16 /\ InvAt (low b) ri False T h t /\
    runs_any l0 ops rs (flat t).
Proof.
  intros [Hb Hn Ho Hd]. assert (1 <= low b <= 16) as Hlow by (destruct b; simpl; lia).
  assert (exists ri, ri <= low b /\ (1 <= ri -> orphan_free (length l0)) /\ (Exists is_remove ops -> 1 <= ri)) as (ri & L1 & L2 & L3).
  { assert (Exists is_remove ops \/ ~ Exists is_remove ops) as [He|He].
    { clear. induction ops as [|o ops IH]; [right; by intros ?%Exists_nil|].
      rewrite Exists_cons. destruct o; simpl; tauto. }
    - exists (low b). split_and!; [lia|auto|lia].
    - exists 0. split_and!; [lia|lia|done]. }
  destruct (begin_any b ri l0 Hb L1 L2) as (T0 & h0 & t0 & E & HI & <-).
  destruct (run_any_ok (low b) ri Hlow ltac:(lia) T0 h0 t0 ops HI L3 Hd Hn) as (rs & T & h & t & E' & HI' & H).
  exists rs, T, ri, h, t. unfold exec. rewrite E, obind_Ok. done.
Qed.

(** ** Cursors, readers, owned iteration and drop *)
Section Reads.
Context (rl ri : nat) (Hrl1 : 1 <= rl).
Notation InvAt := (InvAt (A:=A) rl ri False).

Lemma probe_any (p : probe K) : ORD -> probe_ok p.
Proof. by intros ?%HF. Qed.

Lemma in_flat (t : tr) s1 id kvs s2 (x : K * V) : leaf_seq t = s1 ++ (id, kvs) :: s2 -> x ∈ kvs -> x ∈ flat t.
Proof. clear. intros Es Hx. unfold flat. rewrite Es, map_app, concat_app. simpl. ss. Qed.

Lemma seg_next T h t s1 id kvs s2 : InvAt T h t -> leaf_seq t = s1 ++ (id, kvs) :: s2 ->
  match hd_id s2 None with
  | None => True
  | Some i => exists kv kvs' pv nx, leaves (t_store T) !! i = Some (Some (mk_leaf (kv :: kvs') pv nx)) /\ kv ∈ flat t
  end.
Proof.
  intros HI Es. destruct s2 as [|[i kvs2] s2]; [done|]. simpl hd_id. cbn iota.
  assert (leaf_seq t = (s1 ++ [(id, kvs)]) ++ (i, kvs2) :: s2) as Es2 by (by rewrite Es, <- app_assoc).
  pose proof (inv_leaf _ _ _ _ _ _ _ _ _ _ HI Es2) as El. destruct kvs2 as [|kv kvs2].
  - exfalso. destruct (inv_segs rl ri False Hrl1 T h t HI) as [[j E]|E]; rewrite Es2 in E.
    + by destruct s1 as [|? [|]].
    + apply Forall_app in E as [_ E]. by apply Forall_cons in E as [E _].
  - exists kv, kvs2. eexists _, _. split; [exact El|]. eapply in_flat; [exact Es2|]. by left.
Qed.
Lemma seg_prev T h t s1 id kvs s2 : InvAt T h t -> leaf_seq t = s1 ++ (id, kvs) :: s2 ->
  match last_id None s1 with
  | None => True
  | Some i => exists kv kvs' pv nx, leaves (t_store T) !! i = Some (Some (mk_leaf (kvs' ++ [kv]) pv nx)) /\ kv ∈ flat t
  end.
Proof.
  intros HI Es. destruct s1 as [|[i kvs1] s1 _] using rev_ind; [done|]. rewrite last_id_None. cbn [fst].
  assert (leaf_seq t = s1 ++ (i, kvs1) :: (id, kvs) :: s2) as Es2 by (by rewrite Es, <- app_assoc).
  pose proof (inv_leaf _ _ _ _ _ _ _ _ _ _ HI Es2) as El. destruct kvs1 as [|kv kvs1 _] using rev_ind.
  - exfalso. destruct (inv_segs rl ri False Hrl1 T h t HI) as [[j E]|E]; rewrite Es2 in E.
    + by destruct s1 as [|? [|]].
    + apply Forall_app in E as [_ E]. by apply Forall_cons in E as [E _].
  - exists kv, kvs1. eexists _, _. split; [exact El|]. eapply in_flat; [exact Es2|]. ss.
Qed.

Lemma locate_leaf_any T h t k : InvAt T h t -> exists id s1 kvs s2, locate_leaf T k = Ok id /\
  leaf_seq t = s1 ++ (id, kvs) :: s2.
Proof.
  intros HI. destruct (home_exists rl ri False T h t (probe_key k) HI (probe_any _)) as (id & kvs & mA & mB & s1 & s2 & st & Hm).
  unfold locate_leaf, try_cache.
  destruct (check_cache_any rl ri False Hrl1 _ _ _ _ _ _ _ _ _ _ _ (cached (t_store T)) HI Hm) as [->|(id' & l & -> & Hl & _)]; rewrite obind_Ok.
  - rewrite (descend_home _ _ _ _ _ _ _ _ _ _ _ _ _ _ HI Hm). exists id, s1, kvs, s2. split; [done|]. apply Hm.
  - destruct (inv_leaf_live rl ri False _ _ _ _ _ HI Hl) as (kvs' & s1' & s2' & Es' & _).
    exists id', s1', kvs', s2'. done.
Qed.

Lemma cursor_locate_any T h t (c : cursor K) : InvAt T h t -> exists id s1 kvs s2,
  leaf_seq t = s1 ++ (id, kvs) :: s2 /\ length kvs <= 64 /\
  cursor_locate_leaf T c = Ok (id, mk_leaf kvs (last_id None s1) (hd_id s2 None)).
Proof.
  intros HI. destruct (home_exists rl ri False T h t (probe_key (c_key c)) HI (probe_any _)) as (hid & hkvs & mA & mB & hs1 & hs2 & hst & Hm).
  pose proof (inv_seg_size rl ri False _ _ _ HI) as Hsz.
  assert (forall s1 id kvs s2, leaf_seq t = s1 ++ (id, kvs) :: s2 -> length kvs <= 64) as Hlen.
  { intros s1 id kvs s2 Es. rewrite Es in Hsz. apply Forall_app in Hsz as [_ Hz]. by apply Forall_cons in Hz as [Hz _]. }
  assert (exists id s1 kvs s2, leaf_seq t = s1 ++ (id, kvs) :: s2 /\ length kvs <= 64 /\
    (let! id := locate_leaf T (c_key c) in let! l := get_leaf (t_store T) id in Ok (id, l)) =
      Ok (id, mk_leaf kvs (last_id None s1) (hd_id s2 None))) as Hmiss.
  { destruct (locate_leaf_any T h t (c_key c) HI) as (id & s1 & kvs & s2 & -> & Es). rewrite obind_Ok. exists id, s1, kvs, s2.
    split; [done|]. split; [by eapply Hlen|]. unfold get_leaf.
    by rewrite (inv_leaf _ _ _ _ _ _ _ _ _ _ HI Es), obind_Ok. }
  unfold cursor_locate_leaf, try_get_leaf.
  destruct (leaves (t_store T) !! c_leaf c) as [[l|]|] eqn:El; rewrite ?obind_Ok; [|exact Hmiss|exact Hmiss].
  destruct (in_range_home rl ri False Hrl1 _ _ _ _ _ _ _ _ _ _ _ _ _ HI Hm El) as (b & -> & _). rewrite !obind_Ok.
  destruct b; [|exact Hmiss]. destruct (inv_leaf_live rl ri False _ _ _ _ _ HI El) as (kvs & s1 & s2 & Es & ->).
  exists (c_leaf c), s1, kvs, s2. split; [done|]. split; [by eapply Hlen|]. done.
Qed.

Lemma hint_any (c : cursor K) (kvs : list (K * V)) pv nx :
  cursor_hint_hits (mk_leaf kvs pv nx) c = Ok None \/
  exists k v, cursor_hint_hits (mk_leaf kvs pv nx) c = Ok (Some v) /\ kvs !! c_off c = Some (k, v) /\ kcmp k (c_key c) = Eq.
Proof.
  clear. unfold cursor_hint_hits, leaf_try_data_at. cbn [l_size mk_leaf].
  case_decide as Hd; [by left|]. destruct (lookup_lt_is_Some_2 kvs (c_off c)) as [[k v] E]; [lia|].
  change (mkLeaf _ _ _ _ _) with (mk_leaf kvs pv nx).
  rewrite (leaf_data_at_mk _ _ _ _ _ E), !obind_Ok. unfold key_eqb.
  destruct (kcmp k (c_key c)) eqn:Ek; [|by left..]. right. exists k, v. done.
Qed.

Lemma locate_value_any p (kvs : list (K * V)) pv nx : length kvs <= 64 ->
  exists i o, leaf_locate_slot_with_value (mk_leaf kvs pv nx) p = Ok (i, o) /\ i <= length kvs /\ get_any p kvs o.
Proof.
  intros Hz. unfold leaf_locate_slot_with_value.
  destruct (leaf_locate_any p kvs pv nx (probe_any p) Hz) as (r & -> & Hr); [by intros ?%HF|]. rewrite obind_Ok.
  destruct r as [i|i].
  - destruct Hr as (a & k & v & b & -> & -> & Hk & _). cbn [l_vals mk_leaf].
    rewrite (slot_get_mk _ _ _ v); [|eapply valsof_lookup; by apply lookup_middle']. rewrite !obind_Ok.
    eexists _, _. split; [done|]. split; [rewrite app_length; lia|]. exists k. ss.
  - destruct Hr as (a & b & -> & -> & _). eexists _, _. split; [done|]. split; [rewrite app_length; lia|done].
Qed.

Definition shown (l : list (K * V)) (r : option (cursor K * V)) : Prop :=
  match r with Some (c, v) => (c_key c, v) ∈ l | None => True end.

Lemma cursor_next_any T h t (c : cursor K) : InvAt T h t ->
  exists r, cursor_next_with_value T c = Ok r /\ shown (flat t) r.
Proof.
  intros HI. destruct (cursor_locate_any T h t c HI) as (id & s1 & kvs & s2 & Es & Hz & El).
  unfold cursor_next_with_value. rewrite El, obind_Ok. pose proof (seg_next _ _ _ _ _ _ _ HI Es) as Hn.
  assert (exists hh o, cursor_hint_hits (mk_leaf kvs (last_id None s1) (hd_id s2 None)) c = Ok hh /\
     (match hh with Some _ => Ok (c_off c + 1)
                  | None => let! '(o, v) := leaf_locate_slot_with_value (mk_leaf kvs (last_id None s1) (hd_id s2 None)) (probe_key (c_key c)) in
                            Ok (match v with Some _ => o + 1 | None => o end) end) = Ok o) as (hh & o & -> & Eo).
  { destruct (hint_any c kvs (last_id None s1) (hd_id s2 None)) as [->|(k & v & -> & _)]; [|by eexists _, _].
    destruct (locate_value_any (probe_key (c_key c)) kvs (last_id None s1) (hd_id s2 None) Hz) as (i & x & -> & _).
    eexists _, _. split; [done|]. by rewrite obind_Ok. }
  rewrite obind_Ok, Eo, obind_Ok.
  cbn [l_size l_next mk_leaf]. case_decide as Hd.
  - destruct (lookup_lt_is_Some_2 kvs o) as [[k v] E]; [done|].
    change (mkLeaf _ _ _ _ _) with (mk_leaf kvs (last_id None s1) (hd_id s2 None)).
    rewrite (leaf_data_at_mk _ _ _ _ _ E), obind_Ok. eexists. split; [done|]. simpl. eapply in_flat; [exact Es|].
    by eapply elem_of_list_lookup_2.
  - destruct (hd_id s2 None) as [i|]; [|by eexists].
    destruct Hn as ([k v] & kvs' & pv & nx & El' & Hin). unfold get_leaf. rewrite El', obind_Ok.
    rewrite (leaf_data_at_mk _ _ _ _ (k, v)) by done. rewrite obind_Ok. eexists. split; done.
Qed.

Lemma cursor_prev_any T h t (c : cursor K) : InvAt T h t ->
  exists r, cursor_prev_with_value T c = Ok r /\ shown (flat t) r.
Proof.
  intros HI. destruct (cursor_locate_any T h t c HI) as (id & s1 & kvs & s2 & Es & Hz & El).
  unfold cursor_prev_with_value. rewrite El, obind_Ok. pose proof (seg_prev _ _ _ _ _ _ _ HI Es) as Hn.
  assert (exists hh o, o <= length kvs /\ cursor_hint_hits (mk_leaf kvs (last_id None s1) (hd_id s2 None)) c = Ok hh /\
     (match hh with Some _ => Ok (c_off c)
                  | None => let! r := leaf_locate_slot (mk_leaf kvs (last_id None s1) (hd_id s2 None)) (probe_key (c_key c)) in
                            Ok (match r with ROk o => o | RErr o => o end) end) = Ok o) as (hh & o & Ho & -> & Eo).
  { destruct (hint_any c kvs (last_id None s1) (hd_id s2 None)) as [->|(k & v & -> & E & _)].
    - destruct (leaf_locate_any (probe_key (c_key c)) kvs (last_id None s1) (hd_id s2 None) (probe_any _) Hz) as (r & -> & Hr);
        [by intros ?%HF|]. eexists _, _. split; [|split; [done|by rewrite obind_Ok]]. destruct r as [i|i].
      + destruct Hr as (a & k & v & b & -> & -> & _). rewrite app_length. lia.
      + destruct Hr as (a & b & -> & -> & _). rewrite app_length. lia.
    - eexists _, _. split; [|done]. apply lookup_lt_Some in E. lia. }
  rewrite obind_Ok, Eo, obind_Ok.
  cbn [l_prev mk_leaf]. case_decide as Hd.
  - rewrite obind_Ok. destruct (lookup_lt_is_Some_2 kvs (o - 1)) as [[k v] E]; [lia|].
    change (mkLeaf _ _ _ _ _) with (mk_leaf kvs (last_id None s1) (hd_id s2 None)).
    rewrite (leaf_data_at_mk _ _ _ _ _ E), obind_Ok. eexists. split; [done|]. simpl. eapply in_flat; [exact Es|].
    by eapply elem_of_list_lookup_2.
  - destruct (last_id None s1) as [i|]; [|rewrite obind_Ok; by eexists].
    destruct Hn as ([k v] & kvs' & pv & nx & El' & Hin). unfold get_leaf. rewrite El', obind_Ok.
    cbn [l_size mk_leaf]. rewrite app_length, Nat.add_1_r. cbn [usize_pred]. rewrite !obind_Ok.
    rewrite (leaf_data_at_mk _ _ _ _ (k, v)) by (by apply lookup_middle'). rewrite obind_Ok. eexists. split; done.
Qed.

Lemma cursor_value_any T h t (c : cursor K) : InvAt T h t ->
  exists o, cursor_value T c = Ok o /\ get_any (probe_key (c_key c)) (flat t) o.
Proof.
  intros HI. destruct (cursor_locate_any T h t c HI) as (id & s1 & kvs & s2 & Es & Hz & El).
  unfold cursor_value. rewrite El, obind_Ok.
  destruct (hint_any c kvs (last_id None s1) (hd_id s2 None)) as [->|(k & v & -> & E & Ek)]; rewrite obind_Ok.
  - destruct (locate_value_any (probe_key (c_key c)) kvs (last_id None s1) (hd_id s2 None) Hz) as (i & o & -> & _ & Hg).
    rewrite obind_Ok. eexists. split; [done|]. by eapply get_any_flat.
  - eexists. split; [done|]. eapply get_any_flat; [exact Es|]. exists k. split; [by eapply elem_of_list_lookup_2|done].
Qed.

Lemma get_cursor_any T h t k : InvAt T h t ->
  exists (c : cursor K) o, get_cursor T k = Ok (c, o) /\ c_key c = k /\ get_any (probe_key k) (flat t) o.
Proof.
  intros HI. destruct (home_exists rl ri False T h t (probe_key k) HI (probe_any _)) as (id & kvs & mA & mB & s1 & s2 & st & Hm).
  unfold get_cursor. rewrite (descend_home _ _ _ _ _ _ _ _ _ _ _ _ _ _ HI Hm), obind_Ok. unfold get_leaf.
  pose proof (hm_seq _ _ _ _ _ _ _ _ _ _ _ Hm) as Es. rewrite (inv_leaf _ _ _ _ _ _ _ _ _ _ HI Es), obind_Ok.
  destruct (locate_value_any (probe_key k) kvs (last_id None s1) (hd_id s2 None)) as (i & o & -> & _ & Hg); [apply Hm|].
  rewrite obind_Ok. eexists _, _. split; [done|]. split; [done|]. by eapply get_any_flat.
Qed.

Definition reader_any (t : tr) (rd : reader K V) : Prop :=
  match rd with
  | RdStart _ | RdMiss _ => True
  | RdLeaf p id => exists s1 kvs s2, leaf_seq t = s1 ++ (id, kvs) :: s2
  | RdDone p r => exists o, r = Ok o /\ get_any p (flat t) o
  end.

Lemma reader_step_any T h t seen rd seen' rd' : InvAt T h t ->
  reader_step T seen rd seen' rd' -> reader_any t rd -> reader_any t rd' /\ rd_probe rd' = rd_probe rd.
Proof.
  intros HI Hst Hf.
  destruct (home_exists rl ri False T h t (rd_probe rd) HI (probe_any _)) as (id & kvs & mA & mB & s1 & s2 & st & Hm).
  destruct Hst as [seen p w id' _ E|seen p w _ E|seen p id' E|seen p id']; cbn [rd_probe] in *; (split; [|done]).
  - destruct (check_cache_any rl ri False Hrl1 _ _ _ _ _ _ _ _ _ _ _ w HI Hm) as [E'|(i & l & E' & Hl & _)]; rewrite E in E'; [done|].
    injection E' as <-. destruct (inv_leaf_live rl ri False _ _ _ _ _ HI Hl) as (kvs' & s1' & s2' & Es & _). by exists s1', kvs', s2'.
  - done.
  - rewrite (descend_home _ _ _ _ _ _ _ _ _ _ _ _ _ _ HI Hm) in E. injection E as <-. exists s1, kvs, s2. apply Hm.
  - destruct Hf as (s1' & kvs' & s2' & Es).
    destruct (find_in_leaf_any rl ri False T h t p s1' id' kvs' s2' HI Es (probe_any _)) as (o & -> & Hg & _).
    exists o. split; [done|]. by eapply get_any_flat.
Qed.

Lemma readers_any T h t st st' : InvAt T h t ->
  rtc (readers_step T) st st' -> Forall (reader_any t) st.2 ->
  Forall (reader_any t) st'.2 /\ map rd_probe st'.2 = map rd_probe st.2 /\ (st.1 <> [] -> st'.1 <> []).
Proof.
  intros HI Hst. induction Hst as [st|st st1 st2 H1 Hst IH]; intros Hf; [done|].
  destruct H1 as [seen seen' i rds rd rd' Hi H1]. cbn [fst snd] in *.
  assert (reader_any t rd) as Hrd by (rewrite Forall_lookup in Hf; by eapply Hf).
  destruct (reader_step_any T h t seen rd seen' rd' HI H1 Hrd) as [Hf' Hp].
  destruct IH as (G1 & G2 & G3).
  { by apply Forall_insert. }
  split; [done|]. split.
  - rewrite G2. change (rd_probe <$> <[i:=rd']> rds = rd_probe <$> rds). rewrite list_fmap_insert. apply list_insert_id. rewrite list_lookup_fmap, Hi. simpl. by rewrite Hp.
  - intros Hne. apply G3. by destruct H1.
Qed.

Lemma readers_any_progress T h t seen rd : InvAt T h t ->
  seen <> [] -> (forall p r, rd <> RdDone p r) -> exists seen' rd', reader_step T seen rd seen' rd'.
Proof.
  intros HI Hne Hnd.
  destruct (home_exists rl ri False T h t (rd_probe rd) HI (probe_any _)) as (id & kvs & mA & mB & s1 & s2 & st & Hm).
  destruct rd as [p|p|p id'|p r]; cbn [rd_probe] in *; [..|by destruct (Hnd p r)].
  - destruct seen as [|w seen]; [done|].
    destruct (check_cache_any rl ri False Hrl1 _ _ _ _ _ _ _ _ _ _ _ w HI Hm) as [E|(i & l & E & _)].
    + exists (w :: seen), (RdMiss p). apply (rd_miss _ _ _ w); [by left|done].
    + exists (w :: seen), (RdLeaf p i). apply (rd_hit _ _ _ w); [by left|done].
  - exists (Some id :: seen), (RdLeaf p id). constructor. by apply (descend_home _ _ _ _ _ _ _ _ _ _ _ _ _ _ HI Hm).
  - eexists _, _. constructor.
Qed.

Lemma into_any T h t : InvAt T h t -> exists it, into_iter_new T = Ok it /\ ii_len it = length (flat t) /\
  forall ends, exists it', into_drive it ends = Ok ((deque_drive (flat t) ends).1, it') /\
    ii_len it' = length (deque_drive (flat t) ends).2 /\ into_iter_drop it' = Ok (deque_drive (flat t) ends).2.
Proof.
  intros HI. destruct (into_new_ok rl ri False Hrl1 T h t HI) as (it & E & Hs & Es). exists it. split; [done|].
  assert (forall lo hi (it : into_iter K V A), instate (leaf_seq t) it lo hi -> ii_len it = length (sub (flat t) lo hi)) as Hlen.
  { intros lo hi it1 Hi. rewrite (in_len _ _ _ _ Hi), sub_length; [done|]. apply (in_range _ _ _ _ Hi). }
  split; [by rewrite (Hlen _ _ _ Hs), sub_all|]. intros ends.
  destruct (into_drive_ok (leaf_seq t) it 0 (length (flat t)) ends Hs) as (it' & lo & hi & Hs' & Ei & Ed & Er).
  fold (flat t) in Ed, Er. rewrite sub_all in Ed, Er. exists it'. split; [done|].
  split; [by rewrite <- Er, (Hlen _ _ _ Hs')|]. rewrite <- Er.
  apply (into_drop_ok rl ri False Hrl1 T h t it' lo hi HI Hs'). by rewrite Ei, Es.
Qed.
End Reads.
End AnyProof.

(** ** Any comparison *)
Section AnyTop.
Context {K V A : Type} {KO : KeyOps K} {PF : Profile} {AO : AugOps K V A}.
Notation tree := (tree K V A).

Lemma any_history_ok b l0 (ops : list (op K V)) : any_legal (A:=A) b l0 ops ->
  exists rs (T : tree) l, exec b ops = Ok (rs, T) /\ runs_any l0 ops rs l /\ entries T = Ok l.
Proof.
  intros Hl.
  destruct (exec_any_inv (OM:=om_false) (OI:=ord_if_false K KO) (fun x => x) b l0 ops Hl) as (rs & T & ri & h & t & E & Hlow & HI & H).
  exists rs, T, (flat t). split; [done|]. split; [done|].
  apply (entries_ok (OM:=om_false) (low b) ri False ltac:(lia) T h t HI).
Qed.

Lemma any_reachable_inv b (T : tree) l : any_reachable b T l ->
  exists ri h t, 1 <= low b /\ InvAt (OM:=om_false) (low b) ri False T h t /\ flat t = l.
Proof.
  intros (l0 & ops & rs & Hl & E & El).
  destruct (exec_any_ret (OM:=om_false) (OI:=ord_if_false K KO) (fun x => x) b l0 ops rs T Hl E) as (h & t & Hlow & HI & H).
  exists 0, h, t. split; [lia|]. split; [done|].
  rewrite (entries_ok (OM:=om_false) (low b) 0 False ltac:(lia) T h t HI) in El. by injection El.
Qed.

Lemma any_reads_ok b (T : tree) l : any_reachable b T l ->
  (forall c : cursor K,
    (exists r, cursor_next_with_value T c = Ok r /\ (forall c' v, r = Some (c', v) -> (c_key c', v) ∈ l)) /\
    (exists r, cursor_prev_with_value T c = Ok r /\ (forall c' v, r = Some (c', v) -> (c_key c', v) ∈ l)) /\
    (exists o, cursor_value T c = Ok o /\ get_any (probe_key (c_key c)) l o)) /\
  (forall k, exists c o, get_cursor T k = Ok (c, o) /\ c_key c = k /\ get_any (probe_key k) l o).
Proof.
  intros Hr. destruct (any_reachable_inv b T l Hr) as (ri & h & t & Hlow & HI & <-). split; [intros c; split_and!|intros k].
  - destruct (cursor_next_any (OM:=om_false) (OI:=ord_if_false K KO) (fun x => x) (low b) ri Hlow T h t c HI) as (r & -> & Hs).
    exists r. split; [done|]. by intros c' v ->.
  - destruct (cursor_prev_any (OM:=om_false) (OI:=ord_if_false K KO) (fun x => x) (low b) ri Hlow T h t c HI) as (r & -> & Hs).
    exists r. split; [done|]. by intros c' v ->.
  - apply (cursor_value_any (OM:=om_false) (OI:=ord_if_false K KO) (fun x => x) (low b) ri Hlow T h t c HI).
  - apply (get_cursor_any (OM:=om_false) (OI:=ord_if_false K KO) (fun x => x) (low b) ri Hlow T h t k HI).
Qed.

Lemma any_readers_ok b (T : tree) l w ps seen rds : any_reachable b T l ->
  rtc (readers_step T) ([w], map RdStart ps) (seen, rds) ->
  map rd_probe rds = ps /\
  (forall i p r, rds !! i = Some (RdDone p r) -> exists o, r = Ok o /\ get_any p l o) /\
  (forall i rd, rds !! i = Some rd -> (exists p r, rd = RdDone p r) \/ exists seen' rd', reader_step T seen rd seen' rd').
Proof.
  intros Hr Hst. destruct (any_reachable_inv b T l Hr) as (ri & h & t & Hlow & HI & <-).
  destruct (readers_any (OM:=om_false) (OI:=ord_if_false K KO) (fun x => x) (low b) ri Hlow T h t _ _ HI Hst) as (G1 & G2 & G3).
  { cbn [snd]. apply Forall_map. apply Forall_true. done. }
  cbn [fst snd] in *. rewrite Forall_lookup in G1. split_and!.
  - rewrite G2, map_map. apply map_id.
  - intros i p r Hi. apply (G1 _ _ Hi).
  - intros i rd Hi. destruct rd as [p|p|p id|p r] eqn:Erd; [..|by left; eauto]; right;
      (eapply (readers_any_progress (OM:=om_false) (OI:=ord_if_false K KO) (fun x => x) (low b) ri Hlow T h t); [done|by apply G3|done]).
Qed.

Lemma any_owned_ok b (T : tree) l : any_reachable b T l ->
  tree_drop T = Ok l /\
  exists it, into_iter_new T = Ok it /\ ii_len it = length l /\
    forall ends, exists it', into_drive it ends = Ok ((deque_drive l ends).1, it') /\
      ii_len it' = length (deque_drive l ends).2 /\ into_iter_drop it' = Ok (deque_drive l ends).2.
Proof.
  intros Hr. destruct (any_reachable_inv b T l Hr) as (ri & h & t & Hlow & HI & <-). split.
  - apply (tree_drop_ok (OM:=om_false) (low b) ri False Hlow T h t HI).
  - apply (into_any (OM:=om_false) (low b) ri Hlow T h t HI).
Qed.
End AnyTop.
