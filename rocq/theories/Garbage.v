(** What stays in the store outside the tree. *)
From stdpp Require Import list sorting.
From Verif Require Import Base Slots BinSearch LeafNode InnerNode Store Tree Remove Iterators Observe Cursor Augment BulkLoad
  History View GarbageSpec SlotLemmas NodeLemmas Spec AugSpec Contents Order ContentsProof Logical Descent InsertProof InvLemmas InsertTop
  RemoveLeaf RemoveInner RemoveProof RemoveTop Lookup CursorProof AugProof ViewProof IterProof IntoProof BulkProof BulkTop
  HistProof HistTop AugTop MapTop ReadTop ShapeTop DropExact.

Section Garbage.
Context {K V A : Type} {KO : KeyOps K} {PF : Profile} {OL : OrdLaws K} {AO : AugOps K V A}.
Notation tree := (tree K V A).
Notation tr := (tr K V).
Notation view := (view K V).
Implicit Types (l : list (K * V)).

(** ** Counting *)
Lemma live_list (is : list (option (inner K A))) : exists L, NoDup L /\
  (forall i, i ∈ L <-> exists n, is !! i = Some (Some n)) /\ length L = length (omap id is).
Proof.
  induction is as [|o is (L & H1 & H2 & H3)] using rev_ind.
  { exists []. split; [constructor|]. split; [|done]. intros i. rewrite elem_of_nil. split; [done|]. intros [n ?]. done. }
  assert (forall i, i ∈ L -> i < length is) as Hlt by (intros i [n Hi]%H2; by eapply lookup_lt_Some).
  assert (forall i n, (is ++ [o]) !! i = Some (Some n) <-> is !! i = Some (Some n) \/ (i = length is /\ o = Some n)) as Hl.
  { intros i n. destruct (decide (i < length is)) as [Hi|Hi].
    - rewrite lookup_app_l by done. split; [auto|]. intros [?|[? _]]; [done|lia].
    - rewrite lookup_app_r by lia. assert (is !! i = None) as -> by (apply lookup_ge_None; lia).
      destruct (decide (i = length is)) as [->|Hne].
      + rewrite Nat.sub_diag. simpl. split; [intros [= ->]; auto|]. intros [?|[_ ->]]; done.
      + rewrite (proj2 (lookup_ge_None _ _)) by (simpl; lia). split; [done|]. intros [?|[? _]]; [done|lia]. }
  rewrite omap_app, app_length. destruct o as [n|].
  - exists (length is :: L). split; [|split].
    + constructor; [|done]. intros Hi%Hlt. lia.
    + intros i. rewrite elem_of_cons, H2. split.
      * intros [->|[n' ?]]; [exists n|exists n']; apply Hl; auto.
      * intros [n' [?|[-> _]]%Hl]; [right; eauto|by left].
    + simpl. lia.
  - exists L. split; [done|]. split; [|simpl; lia]. intros i. rewrite H2. split; intros [n ?]; exists n.
    + apply Hl. by left.
    + match goal with H : _ |- _ => apply Hl in H as [?|[_ ?]]; done end.
Qed.

Lemma irep_live SYNC (is : list (option (inner K A))) h (t : tr) i : irep SYNC is h t -> i ∈ inner_ids t -> exists n, is !! i = Some (Some n).
Proof.
  revert t. induction h as [|h IH]; intros [id kvs|id ks ch]; simpl; try done.
  - intros _ H. by apply elem_of_nil in H.
  - intros [(aus & H1 & _) Hf] [->|Hi]%elem_of_cons; [by eexists|].
    apply elem_of_list_In, in_concat in Hi as (l & Hl & Hi). apply in_map_iff in Hl as (c & <- & Hc).
    apply elem_of_list_In in Hc, Hi. rewrite Forall_forall in Hf. by apply (IH c); [apply Hf|].
Qed.

Lemma left_count rl ri SYNC (T : tree) h t g : InvAt (A:=A) rl ri SYNC T h t -> NoDup g ->
  (forall i, i ∈ g <-> stray (inners (t_store T)) t i) -> left_over T (of_tr t) = length g.
Proof.
  intros HI Hg Hs. unfold left_over, live_inners. rewrite of_tr_inner_ids.
  destruct (live_list (inners (t_store T))) as (L & H1 & H2 & <-).
  assert (L ≡ₚ inner_ids t ++ g) as E.
  { apply NoDup_Permutation; [done| |].
    - apply NoDup_app. split; [apply HI|]. split; [|done]. intros i Hi [_ Hn]%Hs. done.
    - intros i. rewrite elem_of_app, H2, Hs. split.
      + intros Hn. destruct (decide (i ∈ inner_ids t)); [by left|]. by right.
      + intros [Hi|[Hn _]]; [|done]. eapply irep_live; [apply HI|done]. }
  rewrite E, app_length. lia.
Qed.
Lemma stray_list rl ri SYNC (T : tree) h t : InvAt (A:=A) rl ri SYNC T h t ->
  exists g, NoDup g /\ (forall i, i ∈ g <-> stray (inners (t_store T)) t i).
Proof.
  intros HI. destruct (live_list (inners (t_store T))) as (L & H1 & H2 & _).
  exists (filter (fun i => i ∉ inner_ids t) L). split; [by apply NoDup_filter|].
  intros i. rewrite elem_of_list_filter, H2. unfold stray. tauto.
Qed.
Lemma left_same rl ri SYNC (T T' : tree) h h' t t' : InvAt (A:=A) rl ri SYNC T h t -> InvAt (A:=A) rl ri SYNC T' h' t' ->
  (forall i, stray (inners (t_store T')) t' i <-> stray (inners (t_store T)) t i) ->
  left_over T' (of_tr t') = left_over T (of_tr t).
Proof.
  intros HI HI' Hs. destruct (stray_list _ _ _ _ _ _ HI) as (g & Hg & Hi).
  rewrite (left_count rl ri SYNC T h t g), (left_count rl ri SYNC T' h' t' g); try done. intros i. by rewrite Hs, Hi.
Qed.
Lemma left_sheds rl ri SYNC (T T' : tree) h h' t t' : InvAt (A:=A) rl ri SYNC T h t -> InvAt (A:=A) rl ri SYNC T' h' t' ->
  sheds T h t T' h' t' -> left_over T' (of_tr t') + h' = left_over T (of_tr t) + h.
Proof.
  intros HI HI' (ex & Hs & Hnd & Hn & ->). destruct (stray_list _ _ _ _ _ _ HI) as (g & Hg & Hi).
  rewrite (left_count rl ri SYNC T (h' + length ex) t g), (left_count rl ri SYNC T' h' t' (g ++ ex)); try done.
  - rewrite app_length. lia.
  - apply NoDup_app. split; [done|]. split; [|done]. intros i Hgi He. apply (Hn i He). by apply Hi.
  - intros i. by rewrite elem_of_app, Hs, Hi.
Qed.

Lemma of_tr_height rl ri SYNC (T : tree) h t : InvAt (A:=A) rl ri SYNC T h t -> view_height (of_tr t) = h.
Proof.
  intros HI. pose proof (inv_shape _ _ _ _ _ _ HI) as Hs. revert Hs. generalize (rmin h) true. clear HI T.
  revert t. induction h as [|h IH]; intros [id kvs|id ks ch] m b; simpl; try done.
  intros (_ & Hl & Hc). destruct ch as [|c ch]; [done|]. simpl. f_equal.
  apply (chs_app _ _ [] c ch) in Hc as (_ & Hc & _). apply shape_nshape in Hc. by eapply IH.
Qed.

Lemma shows_same (s s' : store K V A) w w' : inners s' = inners s -> shows s w -> shows s' w' -> view_id w' = view_id w ->
  view_inner_ids w' = view_inner_ids w /\ view_height w' = view_height w.
Proof.
  intros Hs. revert w'. induction w as [id kvs|id ks ch IH] using view_ind'; intros w' H1 H2 Hid.
  - by destruct w'.
  - destruct w' as [|id' ks' ch']; [done|]. simpl in Hid. injection Hid as ->.
    inversion H1 as [|? n ? ? Hn Hk Hl Hc Hsh]; subst. inversion H2 as [|? n' ? ? Hn' Hk' Hl' Hc' Hsh']; subst.
    assert (n' = n) as ->. { unfold get_inner in *. rewrite Hs in Hn'. congruence. }
    assert (ks' = ks) as -> by congruence.
    assert (Forall2 (fun c c' => view_inner_ids c' = view_inner_ids c /\ view_height c' = view_height c) ch ch') as Hf.
    { apply Forall2_same_length_lookup_2; [congruence|]. intros i c c' E E'.
      rewrite Forall_lookup in IH, Hsh, Hsh'. apply (IH i c E); [by eapply Hsh|by eapply Hsh'|].
      pose proof (Hc _ _ E) as X1. pose proof (Hc' _ _ E') as X2. congruence. }
    split.
    + simpl. do 2 f_equal. clear -Hf. induction Hf as [|c c' ch ch' [E _] _ IH]; simpl; [done|]. by rewrite E, IH.
    + simpl. by destruct Hf as [|c c' ch ch' [_ ->] _].
Qed.
Lemma left_inners (T T' : tree) w w' : inners (t_store T') = inners (t_store T) -> t_root T' = t_root T ->
  tree_shows T w -> tree_shows T' w' -> left_over T' w' = left_over T w /\ view_height w' = view_height w.
Proof.
  intros Hi Hr [H1 H2] [H3 H4]. destruct (shows_same _ _ w w' Hi H2 H4) as [E1 E2]; [congruence|].
  unfold left_over, live_inners. by rewrite Hi, E1, E2.
Qed.
Lemma get_inners (T T' : tree) p r : get T p = Ok (r, T') -> inners (t_store T') = inners (t_store T) /\ t_root T' = t_root T.
Proof.
  unfold get. intros (c & E & H)%bind_inv. destruct c as [id|].
  - apply bind_inv in H as (x & _ & [= <- <-]). done.
  - apply bind_inv in H as (x & _ & H). apply bind_inv in H as (y & _ & [= <- <-]). done.
Qed.
Lemma get_mut_inners (T T' : tree) p f r : get_mut T p f = Ok (r, T') ->
  inners (t_store T') = inners (t_store T) /\ t_root T' = t_root T.
Proof.
  assert (forall (s s' : store K V A) id r, find_in_leaf_mut s id p f = Ok (r, s') -> inners s' = inners s) as Hf.
  { intros s s' id r0. unfold find_in_leaf_mut. intros (x & _ & H)%bind_inv. apply bind_inv in H as ([??] & _ & [= <- <-]). done. }
  unfold get_mut. intros (c & E & H)%bind_inv. destruct c as [id|].
  - apply bind_inv in H as ([x s'] & Hx & [= <- <-]). by apply Hf in Hx.
  - apply bind_inv in H as (x & _ & H). apply bind_inv in H as ([y s'] & Hx & [= <- <-]). by apply Hf in Hx.
Qed.

(** ** Steps *)
Lemma step_left b (T T' : tree) l o r w w' : reachable b T l -> op_ok o -> (is_remove o -> removal_ok (A:=A) b l) ->
  step T o = Ok (r, T') -> tree_shows T w -> tree_shows T' w' ->
  left_over T' w' = match o with
                    | OClear => 0
                    | ORemove _ => left_over T w + (view_height w - view_height w')
                    | _ => left_over T w
                    end /\
  (is_remove o -> view_height w' <= view_height w).
Proof.
  intros Hr Ho Hrm E Hw Hw'.
  destruct (reachable_any False b T l Hr) as (ri & h & t & Hlow & Hri & HI & Hf & Ha & Hof & Hh); [done|].
  assert (N.of_nat (t_len T) < 2 ^ 64)%N as Hlen.
  { rewrite (inv_len _ _ _ _ _ _ HI), Hf. destruct Hr as (ops & rs & Hl & _ & <-). apply fits_end, Hl. }
  destruct (inv_shows (low b) ri False T h t HI) as (H1 & _). rewrite (tree_shows_fun T w (of_tr t)) by done.
  assert (inners (t_store T') = inners (t_store T) /\ t_root T' = t_root T -> left_over T' w' = left_over T (of_tr t)) as Hsame.
  { intros [Hi Hrt]. by apply left_inners. }
  assert (forall p, is_remove (K:=K) (V:=V) (ORemove p) -> op_ok (K:=K) (V:=V) (ORemove p) -> removal_ok (A:=A) b l -> step T (ORemove p) = Ok (r, T') ->
    left_over T' w' + view_height w' = left_over T (of_tr t) + view_height (of_tr t) /\ view_height w' <= view_height (of_tr t)) as Hrem.
  { clear Ho Hrm E. intros p _ Ho [Hfr Hdr] E. cbn [step] in E. apply bind_inv in E as ([r0 T0] & E & [= <- <-]).
    rewrite <- Hf in Hdr. pose proof (drop_height (low b) ri False ltac:(lia) ltac:(lia) T h t HI Hdr) as Hd.
    specialize (Hof Hfr). assert (1 <= ri <= 16) as Hri1 by lia.
    destruct (remove_any (low b) ri False ltac:(lia) Hri1 T h t p HI (fun _ => Ho) Hlen Hd) as (o1 & T1 & h' & t' & E' & HI' & Hle & _ & _ & Hsd).
    rewrite E' in E. injection E as -> <-.
    destruct (inv_shows (low b) ri False T1 h' t' HI') as (H2 & _). rewrite (tree_shows_fun T1 w' (of_tr t')) by done.
    rewrite (of_tr_height _ _ _ _ _ _ HI), (of_tr_height _ _ _ _ _ _ HI'). split; [|done]. by eapply left_sheds. }
  destruct o as [k v|p|p|p f| | | | | | | | |c]; cbn [step] in E; (split; [|try done]).
  - apply bind_inv in E as ([r0 T0] & E & [= <- <-]).
    destruct (insert_any (low b) ri False ltac:(lia) Hri T h t k v HI Hlen) as (o & T1 & h' & t' & E' & HI' & _ & _ & _ & Hst).
    rewrite E' in E. injection E as -> <-.
    destruct (inv_shows (low b) ri False T1 h' t' HI') as (H2 & _). rewrite (tree_shows_fun T1 w' (of_tr t')) by done.
    by eapply left_same.
  - destruct (Hrem p) as [X Y]; [done|done|by apply Hrm|done|]. lia.
  - intros _. by destruct (Hrem p) as [X Y]; [done|done|by apply Hrm|done|].
  - apply bind_inv in E as ([r0 T0] & E & [= <- <-]). by apply Hsame, (get_inners _ _ p r0).
  - apply bind_inv in E as ([r0 T0] & E & [= <- <-]). by apply Hsame, (get_mut_inners _ _ p f r0).
  - apply bind_inv in E as (? & _ & [= <- <-]). by apply Hsame.
  - apply bind_inv in E as (? & _ & [= <- <-]). by apply Hsame.
  - injection E as <- <-. by apply Hsame.
  - injection E as <- <-. by apply Hsame.
  - apply bind_inv in E as (? & _ & [= <- <-]). by apply Hsame.
  - apply bind_inv in E as (? & _ & [= <- <-]). by apply Hsame.
  - apply bind_inv in E as (? & E & [= <- <-]). rewrite (clear_ok (low b) ri False ltac:(lia) T h t HI) in E. injection E as <-. done.
  - apply bind_inv in E as (? & E & [= <- <-]). rewrite (tree_clone_ok (low b) ri False ltac:(lia) T h t HI) in E. injection E as <-. by apply Hsame.
  - injection E as <- <-. by apply Hsame.
Qed.

Lemma begin_clean b : start_ok b ->
  exists (T : tree) h t, begin b = Ok T /\ InvAt (A:=A) 1 0 False T h t /\ (forall i, ~ stray (inners (t_store T)) t i).
Proof.
  assert (InvAt (A:=A) 1 0 False tree_new 0 (TLeaf 0 []) /\ (forall i, ~ stray (inners (t_store (tree_new (AO:=AO)))) (TLeaf (K:=K) (V:=V) 0 []) i)) as [Hn1 Hn2].
  { split; [apply new_inv; lia|]. intros i [[n Hn] _]. by destruct i. }
  assert (forall data, key_sorted data -> exists (T : tree) h t, bulk_load data = Ok T /\ InvAt (A:=A) 1 0 False T h t /\
    (forall i, ~ stray (inners (t_store T)) t i)) as Hbulk.
  { intros data Hs. destruct data as [|x data]; [by exists tree_new, 0, (TLeaf 0 [])|].
    destruct (bulk_items_ok (A:=A) 0 False ltac:(lia) (spec_load (x :: data)))
      as (s & nodes & c & s' & root & T & h & t & E1 & E2 & E3 & HI & _ & _ & _ & Hst).
    { intros _. apply spec_load_elem. } { by apply spec_load_nonnil. } { done. }
    exists T, h, t. split; [|done]. unfold bulk_load. rewrite dedup_load by done. rewrite E1, obind_Ok, E2, obind_Ok. done. }
  intros Hb. destruct b as [|data|data]; cbn [begin start_ok] in *.
  - by exists tree_new, 0, (TLeaf 0 []).
  - by apply Hbulk.
  - unfold from_iter. apply Hbulk, sort_by_key_sorted.
Qed.
Lemma begin_left b (T : tree) w : start_ok b -> begin b = Ok T -> tree_shows T w -> left_over T w = 0.
Proof.
  intros Hb E Hw. destruct (begin_clean b Hb) as (T1 & h & t & E1 & HI & Hs). rewrite E1 in E.
  assert (T1 = T) as -> by congruence.
  destruct (inv_shows 1 0 False T h t HI) as (H1 & _). rewrite (tree_shows_fun T w (of_tr t)) by done.
  rewrite (left_count 1 0 False T h t []); [done|done|constructor|]. intros i. rewrite elem_of_nil. split; [done|apply Hs].
Qed.

(** ** What a left-over node looks like *)
Lemma left_node b (T : tree) l w i n : reachable b T l -> tree_shows T w ->
  inners (t_store T) !! i = Some (Some n) -> i ∉ view_inner_ids w -> i_size n = 0.
Proof.
  intros Hr Hw Hn Hi.
  destruct (reachable_any False b T l Hr) as (ri & h & t & Hlow & Hri & HI & Hf & Ha & Hof & Hh); [done|].
  destruct (inv_shows (low b) ri False T h t HI) as (H1 & _). rewrite (tree_shows_fun T w (of_tr t)) in Hi by done.
  rewrite of_tr_inner_ids in Hi. destruct (inv_garbage _ _ _ _ _ _ HI i n Hn) as [?|(c & a & ->)]; done.
Qed.
Lemma shape_keys rl ri SYNC (is : list (option (inner K A))) m b h (t : tr) i n : 1 <= ri -> 1 <= m \/ h = 0 -> irep SYNC is h t ->
  nshape rl ri m b h t -> i ∈ inner_ids t -> is !! i = Some (Some n) -> i_size n <> 0.
Proof.
  intros Hri. revert m b t. induction h as [|h IH]; intros m b [id kvs|id ks ch] Hm; simpl; try done.
  - intros _ _ Hi. by apply elem_of_nil in Hi.
  - intros [(aus & E & Hla & _) Hf] ([Hks _] & Hl & Hc) Hi En. apply elem_of_cons in Hi as [->|Hi].
    + rewrite E in En. injection En as <-. simpl. lia.
    + apply elem_of_list_In, in_concat in Hi as (l & Hl' & Hi). apply in_map_iff in Hl' as (c & <- & Hc').
      apply elem_of_list_In in Hc', Hi. rewrite Forall_forall in Hf. specialize (Hf c Hc').
      destruct (chs_elem _ _ _ _ Hc Hc') as [X|X]; apply shape_nshape in X;
        (eapply IH; [|exact Hf|exact X|done|done]); destruct h, b; simpl; lia.
Qed.
Lemma left_exact b (T : tree) l w i n : reachable b T l -> orphan_free (length (spec_begin b)) -> tree_shows T w ->
  inners (t_store T) !! i = Some (Some n) -> i ∈ view_inner_ids w <-> i_size n <> 0.
Proof.
  intros Hr Hfr Hw Hn. split.
  - destruct (reachable_any False b T l Hr) as (ri & h & t & Hlow & Hri & HI & Hf & Ha & Hof & Hh); [done|].
    destruct (inv_shows (low b) ri False T h t HI) as (H1 & _). rewrite (tree_shows_fun T w (of_tr t)) by done.
    rewrite of_tr_inner_ids. intros Hi. specialize (Hof Hfr).
    eapply (shape_keys (low b) ri False); [lia| |apply HI|apply HI|done|done]. destruct h; simpl; lia.
  - intros Hz. destruct (decide (i ∈ view_inner_ids w)) as [|Hi]; [done|]. destruct Hz. by eapply left_node.
Qed.
End Garbage.
