(** Shape, links, summaries, visitors, bulk loading on a tree a program can hold. *)
From stdpp Require Import list sorting.
From Verif Require Import Base Slots BinSearch LeafNode InnerNode Store Tree Remove Iterators Observe Cursor Augment BulkLoad
  History View SlotLemmas NodeLemmas Spec AugSpec Contents Order ContentsProof Logical Descent InsertProof InvLemmas InsertTop
  RemoveLeaf RemoveInner RemoveProof RemoveTop Lookup CursorProof AugProof ViewProof IterProof IntoProof BulkProof BulkTop
  HistProof HistTop AugTop MapTop ReadTop.

Section ShapeTop.
Context {K V A : Type} {KO : KeyOps K} {PF : Profile} {OL : OrdLaws K} {AO : AugOps K V A}.
Notation tree := (tree K V A).
Notation view := (view K V).
Implicit Types (l : list (K * V)).

(** ** A store shows one tree only *)
Lemma view_ind' (P : view -> Prop) : (forall id kvs, P (VLeaf id kvs)) ->
  (forall id ks ch, Forall P ch -> P (VInner id ks ch)) -> forall w, P w.
Proof.
  intros Hl Hi. fix IH 1. intros [id kvs|id ks ch]; [apply Hl|]. apply Hi. induction ch as [|c ch IHc]; constructor; [apply IH|exact IHc].
Qed.
Lemma map_pair_eq {X Y} (a b : list (X * Y)) : map fst a = map fst b -> map snd a = map snd b -> a = b.
Proof. revert b. induction a as [|[x y] a IH]; intros [|[x' y'] b]; simpl; try done. intros [= -> H1] [= -> H2]. f_equal. by apply IH. Qed.

Lemma shows_fun (s : store K V A) w w' : shows s w -> shows s w' -> view_id w = view_id w' -> w = w'.
Proof.
  revert w'. induction w as [id kvs|id ks ch IH] using view_ind'; intros w' H1 H2 Hid.
  - destruct w' as [id' kvs'|]; [|done]. simpl in Hid. injection Hid as <-.
    inversion H1 as [? n ? Hn Hk Hv|]; subst. inversion H2 as [? n' ? Hn' Hk' Hv'|]; subst.
    f_equal. apply map_pair_eq; congruence.
  - destruct w' as [|id' ks' ch']; [done|]. simpl in Hid. injection Hid as <-.
    inversion H1 as [|? n ? ? Hn Hk Hl Hc Hs]; subst. inversion H2 as [|? n' ? ? Hn' Hk' Hl' Hc' Hs']; subst.
    assert (n' = n) as -> by congruence. assert (ks' = ks) as -> by congruence. f_equal.
    apply list_eq. intros i. destruct (ch !! i) as [c|] eqn:E.
    + destruct (ch' !! i) as [c'|] eqn:E'.
      * f_equal. rewrite Forall_lookup in IH, Hs, Hs'. apply (IH i c E); [by eapply Hs|by eapply Hs'|].
        pose proof (Hc _ _ E) as X1. pose proof (Hc' _ _ E') as X2. congruence.
      * apply lookup_lt_Some in E. apply lookup_ge_None in E'. lia.
    + destruct (ch' !! i) as [c'|] eqn:E'; [|done]. apply lookup_lt_Some in E'. apply lookup_ge_None in E. lia.
Qed.
Lemma tree_shows_fun (T : tree) w w' : tree_shows T w -> tree_shows T w' -> w = w'.
Proof. intros [H1 H2] [H3 H4]. apply (shows_fun (t_store T)); [done|done|congruence]. Qed.

(** ** Occupancy and height *)
Definition least_fill (b : start K V) : nat := match b with SNew => 16 | _ => 1 end.

Lemma shape_ok b (T : tree) l : reachable b T l ->
  exists w h, tree_shows T w /\ (forall w', tree_shows T w' -> w' = w) /\ view_entries w = l /\ separated w /\
    occupied (match h with 0 => 0 | _ => 1 end) 0 h w /\
    (orphan_free (length (spec_begin b)) -> occupied (match h with 0 => 0 | _ => 1 end) (least_fill b) h w) /\
    h <= MAX_DEPTH /\ (forall h', h = S h' -> (16 * 17 ^ N.of_nat h' <= N.of_nat (length l))%N).
Proof.
  intros Hr. destruct (reachable_any False b T l Hr) as (ri & h & t & Hlow & Hri & HI & <- & Ha & Hof & Hh); [done|].
  destruct (inv_shows (low b) ri False T h t HI) as (H1 & H2 & H3 & H4).
  exists (of_tr t), h. split; [done|]. split; [intros w' Hw; by eapply tree_shows_fun|]. split; [done|]. split; [done|].
  split; [apply H4; lia|]. split; [|split; [done|]].
  - intros Ho. rewrite (Hof Ho) in H4. apply H4; destruct b; simpl; lia.
  - intros h' ->. pose proof (inv_shape _ _ _ _ _ _ HI) as Hs. by apply (root_size _ _ h' t Hs).
Qed.

(** ** Leaves and their links *)
Lemma leaves_ok b (T : tree) l w : reachable b T l -> tree_shows T w ->
  NoDup (view_leaf_ids w) /\
  (forall id, id ∈ view_leaf_ids w <-> exists n, leaves (t_store T) !! id = Some (Some n)) /\
  (forall i id n, view_leaf_ids w !! i = Some id -> get_leaf (t_store T) id = Ok n ->
    l_next n = view_leaf_ids w !! S i /\
    l_prev n = match i with 0 => None | S i' => view_leaf_ids w !! i' end).
Proof.
  intros Hr Hw. destruct (reachable_any False b T l Hr) as (ri & h & t & Hlow & Hri & HI & <- & Ha & Hof & Hh); [done|].
  destruct (inv_shows (low b) ri False T h t HI) as (H1 & _). rewrite (tree_shows_fun T w (of_tr t)) by done.
  rewrite of_tr_leaf_ids. split; [apply (lrep_nodup _ _ (inv_lrep _ _ _ _ _ _ HI))|]. split.
  - intros id. split.
    + intros Hin. apply elem_of_list_In, in_map_iff in Hin as ([id' kvs] & <- & Hin).
      apply elem_of_list_In, elem_of_list_split in Hin as (s1 & s2 & Es). eexists. by apply (inv_leaf _ _ _ _ _ _ _ _ _ _ HI Es).
    + intros [n E]. by apply (lrep_live _ _ (inv_lrep _ _ _ _ _ _ HI) _ n).
  - intros i id n Hi Hn. change (map fst (leaf_seq t)) with (fst <$> leaf_seq t) in *.
    rewrite list_lookup_fmap in Hi. destruct (leaf_seq t !! i) as [[id' kvs]|] eqn:Es; [|done]. injection Hi as ->.
    apply elem_of_list_split_length in Es as (s1 & s2 & Es & ->).
    unfold get_leaf in Hn. rewrite (inv_leaf _ _ _ _ _ _ _ _ _ _ HI Es) in Hn. injection Hn as <-.
    rewrite Es, fmap_app, fmap_cons. cbn [l_next l_prev mk_leaf]. split.
    + rewrite lookup_app_r by (rewrite fmap_length; lia). rewrite fmap_length.
      replace (S (length s1) - length s1) with 1 by lia. simpl. by destruct s2.
    + destruct s1 as [|s s1 _] using rev_ind; [done|]. rewrite last_id_None, app_length. simpl.
      rewrite Nat.add_1_r. rewrite lookup_app_l by (rewrite fmap_length, app_length; simpl; lia).
      rewrite fmap_app. rewrite lookup_app_r by (rewrite fmap_length; lia). by rewrite fmap_length, Nat.sub_diag.
Qed.

Lemma inners_ok b (T : tree) l w : reachable b T l -> tree_shows T w ->
  NoDup (view_inner_ids w) /\
  (forall id, id ∈ view_inner_ids w -> exists n, inners (t_store T) !! id = Some (Some n)).
Proof.
  intros Hr Hw. destruct (reachable_any False b T l Hr) as (ri & h & t & Hlow & Hri & HI & <- & Ha & Hof & Hh); [done|].
  destruct (inv_shows (low b) ri False T h t HI) as (H1 & _). rewrite (tree_shows_fun T w (of_tr t)) by done.
  split; [rewrite of_tr_inner_ids; apply HI|]. clear w Hw. destruct H1 as [_ Hs].
  induction (of_tr t) as [id kvs|id ks ch IH] using view_ind'; simpl; [intros id' H; by apply elem_of_nil in H|].
  inversion Hs as [|? n ? ? Hn Hk Hl Hc Hf]; subst. intros id' [->|Hin]%elem_of_cons.
  - exists n. unfold get_inner in Hn. destruct (inners (t_store T) !! id) as [[n'|]|]; try done. by injection Hn as ->.
  - apply elem_of_list_In, in_concat in Hin as (x & Hx & Hin). apply in_map_iff in Hx as (c & <- & Hc').
    rewrite Forall_forall in IH, Hf. apply elem_of_list_In in Hc'. apply (IH c Hc'); [by apply Hf|by apply elem_of_list_In].
Qed.

(** ** Summaries and visitors *)
Lemma synced_any b (ops : list (op K V)) rs (T : tree) : proper (A:=A) b ops -> exec b ops = Ok (rs, T) ->
  (Exists is_write ops -> key_aug (K:=K) (V:=V) (A:=A)) ->
  exists ri h t, 1 <= low b <= 16 /\ InvAt (A:=A) (low b) ri True T h t /\ flat t = (spec_exec b ops).2.
Proof.
  intros Hl E Hk. destruct (exec_inv_any True b ops rs T Hl E) as (ri & h & t & H1 & H2 & H3 & H4 & _); [auto|]. eauto 10.
Qed.
Lemma summary_top b (ops : list (op K V)) rs (T : tree) (R : A -> list (K * V) -> Prop) :
  summary_ok R -> proper (A:=A) b ops -> exec b ops = Ok (rs, T) ->
  (Exists is_write ops -> key_aug (K:=K) (V:=V) (A:=A)) -> R (t_aug T) (spec_exec b ops).2.
Proof.
  intros HR Hl E Hk. destruct (synced_any b ops rs T Hl E Hk) as (ri & h & t & Hlow & HI & <-).
  eapply (root_summary (low b) ri); [lia|done|exact HI].
Qed.
Lemma visit_top b (ops : list (op K V)) rs (T : tree) w : proper (A:=A) b ops -> exec b ops = Ok (rs, T) ->
  (Exists is_write ops -> key_aug (K:=K) (V:=V) (A:=A)) -> tree_shows T w ->
  forall S R (vis : visitor K V A S R) st, descend_visit T vis st = walk vis w st.
Proof.
  intros Hl E Hk Hw S R vis st. destruct (synced_any b ops rs T Hl E Hk) as (ri & h & t & Hlow & HI & _).
  destruct (inv_shows (low b) ri True T h t HI) as (H1 & _). rewrite (tree_shows_fun T w (of_tr t)) by done.
  by eapply visit_ok.
Qed.

(** ** Bulk loading *)
Lemma last_for_pair (data : list (K * V)) x : last_for (fst x) data = Some x <-> last_pair data x.
Proof.
  induction data as [|y data IH]; simpl.
  { split; [done|]. intros (a & b & E & _). by destruct a. }
  assert (last_for x.1 data = None -> forall y, y ∈ data -> kcmp y.1 x.1 <> Eq) as Hn.
  { clear. induction data as [|y data IH]; simpl; [intros _ y H; by apply elem_of_nil in H|].
    destruct (last_for x.1 data); [done|]. intros H z [->|Hz]%elem_of_cons; [|by apply IH]. by destruct (kcmp y.1 x.1). }
  assert (last_for x.1 data <> None -> exists z, z ∈ data /\ kcmp z.1 x.1 = Eq) as Hs.
  { clear. induction data as [|y data IH]; simpl; [done|]. destruct (last_for x.1 data).
    - intros _. destruct IH as (z & ? & ?); [done|]. exists z. split; [by right|done].
    - intros H. exists y. split; [by left|]. by destruct (kcmp y.1 x.1). }
  destruct (last_for x.1 data) as [z|] eqn:E.
  - rewrite IH. split.
    + intros (a & b & -> & H). by exists (y :: a), b.
    + intros (a & b & Ed & H). destruct a as [|y' a]; injection Ed as -> ->; [|by exists a, b].
      destruct Hs as (z' & H1 & H2); [done|]. by destruct (H _ H1).
  - specialize (Hn eq_refl). split.
    + destruct (kcmp y.1 x.1); [|done..]. intros [= ->]. exists [], data. done.
    + intros (a & b & Ed & H). destruct a as [|y' a]; injection Ed as -> ->.
      * by rewrite ord_refl.
      * exfalso. apply (Hn x); [|apply ord_refl]. rewrite elem_of_app, elem_of_cons. auto.
Qed.

Lemma bulk_top (data : list (K * V)) : key_sorted data ->
  exists (T : tree) l, bulk_load data = Ok T /\ entries T = Ok l /\ t_len T = length l /\ ascending l /\
    (forall x, x ∈ l <-> last_pair data x) /\
    ((N.of_nat (length l) < 2 ^ 64)%N -> reachable (SBulk data) T l).
Proof.
  intros Hs. destruct (bulk_load_ok (A:=A) 0 False data ltac:(lia) Hs) as (T & h & t & E & HI & Ef); [done|].
  destruct (spec_load_elem data) as [Ha He]. exists T, (spec_load data). split; [done|].
  split; [by rewrite <- Ef; eapply entries_ok; [|exact HI]|]. split; [by rewrite <- Ef; apply HI|]. split; [done|].
  split; [intros x; by rewrite He, last_for_pair|]. intros Hl. exists [], []. split; [|split].
  - split; [done|constructor|by split|done].
  - unfold exec. simpl. by rewrite E.
  - done.
Qed.
Lemma collect_top (data : list (K * V)) :
  exists (T : tree) l, from_iter data = Ok T /\ entries T = Ok l /\ t_len T = length l /\ ascending l /\
    (forall x, x ∈ l <-> last_pair data x) /\
    ((N.of_nat (length l) < 2 ^ 64)%N -> reachable (SCollect data) T l).
Proof.
  destruct (from_iter_ok (A:=A) 0 False data ltac:(lia)) as (T & h & t & E & HI & Ef); [done|].
  destruct (spec_load_elem data) as [Ha He]. exists T, (spec_load data). split; [done|].
  split; [by rewrite <- Ef; eapply entries_ok; [|exact HI]|]. split; [by rewrite <- Ef; apply HI|]. split; [done|].
  split; [intros x; by rewrite He, last_for_pair|]. intros Hl. exists [], []. split; [|split].
  - split; [done|constructor|by split|done].
  - unfold exec. simpl. by rewrite E.
  - done.
Qed.

Lemma small_orphan_free n : n <= 4160 -> orphan_free n.
Proof.
  intros Hn. destruct (decide (n = 0)) as [->|Hz]; [by left|]. right.
  set (m := (n + 63) / 64). assert (1 <= m <= 65) as Hm.
  { unfold m. split; [apply Nat.div_le_lower_bound; lia|]. apply Nat.lt_succ_r, Nat.div_lt_upper_bound; lia. }
  destruct (decide (m = 1)) as [->|H1]; [constructor|]. apply no_orphan_more; [lia| |].
  - destruct (decide (m = 65)) as [->|H2]; [done|]. rewrite Nat.mod_small; lia.
  - replace ((m + 64) / 65) with 1; [constructor|].
    apply (Nat.div_unique _ _ 1 (m - 1)); lia.
Qed.
Lemma bulk_history_ok b (ops : list (op K V)) :
  start_ok b -> Forall op_ok ops -> fits (spec_begin b) ops ->
  (Exists is_remove ops -> orphan_free (length (spec_begin b)) \/ length (spec_begin b) <= 4160) ->
  aug_needs_drop (K:=K) (V:=V) (A:=A) = false ->
  exists T : tree, exec b ops = Ok ((spec_exec b ops).1, T) /\ entries T = Ok (spec_exec b ops).2.
Proof.
  intros H1 H2 H3 H4 H5. apply history_ok. split; [done|done|done| |by apply drops_none].
  intros H. destruct (H4 H); [done|]. by apply small_orphan_free.
Qed.

(** ** Statements for the properties *)
Lemma height_top b (T : tree) l : reachable b T l ->
  exists w h, tree_shows T w /\ view_entries w = l /\ occupied 0 0 h w /\ h <= MAX_DEPTH /\
    (forall h', h = S h' -> (16 * 17 ^ N.of_nat h' <= N.of_nat (length l))%N).
Proof.
  intros Hr. destruct (shape_ok b T l Hr) as (w & h & H1 & _ & H2 & _ & H3 & _ & H4 & H5). exists w, h.
  split_and!; try done. destruct h as [|h]; [done|]. destruct w as [|id ks ch]; [done|]. simpl in *.
  destruct H3 as (H3 & H6 & H7). split_and!; [lia|lia|done|done].
Qed.
Lemma occupancy_top (T : tree) l : reachable SNew T l ->
  exists w h, tree_shows T w /\ (forall w', tree_shows T w' -> w' = w) /\ view_entries w = l /\ separated w /\
    occupied (match h with 0 => 0 | _ => 1 end) 16 h w.
Proof.
  intros Hr. destruct (shape_ok SNew T l Hr) as (w & h & H1 & H2 & H3 & H4 & _ & H5 & _). exists w, h.
  split_and!; try done. apply H5. by left.
Qed.
Lemma live_top b (T : tree) l w : reachable b T l -> tree_shows T w ->
  NoDup (view_leaf_ids w) /\ NoDup (view_inner_ids w) /\
  (forall id, id ∈ view_leaf_ids w <-> exists n, leaves (t_store T) !! id = Some (Some n)) /\
  (forall id, id ∈ view_inner_ids w -> exists n, inners (t_store T) !! id = Some (Some n)).
Proof.
  intros Hr Hw. destruct (leaves_ok b T l w Hr Hw) as (H1 & H2 & _). destruct (inners_ok b T l w Hr Hw) as (H3 & H4). done.
Qed.
Lemma links_top b (T : tree) l w : reachable b T l -> tree_shows T w ->
  view_entries w = l /\
  (forall i id n, view_leaf_ids w !! i = Some id -> get_leaf (t_store T) id = Ok n ->
    l_next n = view_leaf_ids w !! S i /\
    l_prev n = match i with 0 => None | S i' => view_leaf_ids w !! i' end).
Proof.
  intros Hr Hw. split; [|by apply (leaves_ok b T l w)].
  destruct (shape_ok b T l Hr) as (w' & h & _ & H1 & <- & _). by rewrite (H1 w).
Qed.
Lemma drops_top b (ops : list (op K V)) :
  start_ok b -> Forall op_ok ops -> fits (spec_begin b) ops ->
  (Exists is_remove ops -> orphan_free (length (spec_begin b))) ->
  drops_ok (A:=A) (spec_begin b) ops ->
  exists T : tree, exec b ops = Ok ((spec_exec b ops).1, T) /\ tree_drop T = Ok (spec_exec b ops).2.
Proof.
  intros H1 H2 H3 H4 H5. assert (legal (A:=A) b ops) as Hl by done.
  destruct (history_ok b ops Hl) as (T & E & _). exists T. split; [done|]. apply (tree_drop_top b). by exists ops, (spec_exec b ops).1.
Qed.
End ShapeTop.
