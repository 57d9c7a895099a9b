(** Cursors: whatever the hints hold, [next], [prev], [value] and [exists] answer
    for the cursor's key and the present contents of the tree. *)
From stdpp Require Import list sorting.
From Verif Require Import Base Slots BinSearch LeafNode InnerNode Store Tree Remove Cursor
  SlotLemmas NodeLemmas Spec Order Logical Descent InsertProof InvLemmas InsertTop
  RemoveLeaf RemoveInner RemoveProof RemoveTop Lookup.

Section CursorProof.
Context {K V A : Type} {KO : KeyOps K} {PF : Profile} {OL : OrdLaws K} {AO : AugOps K V A}.
Notation tr := (tr K V).
Notation tree := (tree K V A).
Notation cursor := (cursor K).

Lemma spec_succ_split k (l1 l2 : list (K * V)) : Forall (fun x => kcmp x.1 k <> Gt) l1 ->
  Forall (fun x => kcmp x.1 k = Gt) l2 -> spec_succ k (l1 ++ l2) = head l2.
Proof.
  intros H1 H2. induction H1 as [|[k' v'] l1 H H1 IH]; simpl in *.
  - destruct l2 as [|[k' v'] l2]; [done|]. apply Forall_cons in H2 as [H2 _]. simpl in *. by rewrite H2.
  - destruct (kcmp k' k); done.
Qed.
Lemma spec_pred_split k (l1 l2 : list (K * V)) : Forall (fun x => kcmp x.1 k = Lt) l1 ->
  Forall (fun x => kcmp x.1 k <> Lt) l2 -> spec_pred k (l1 ++ l2) = list.last l1.
Proof.
  intros H1 H2. induction H1 as [|[k' v'] l1 H H1 IH]; simpl in *.
  - destruct l2 as [|[k' v'] l2]; [done|]. apply Forall_cons in H2 as [H2 _]. simpl in *. by destruct (kcmp k' k).
  - rewrite H, IH. destruct l1; [done|]. destruct (list.last (p :: l1)) eqn:E; [done|]. by apply last_None in E.
Qed.

Section Inv.
Context (rl ri : nat) (SYNC : Prop) (Hrl1 : 1 <= rl).
Notation InvAt := (InvAt (A:=A) rl ri SYNC).

(** Where the key of a cursor belongs: leaf [id] with contents [a ++ m ++ b]. *)
Record place (T : tree) (t : tr) (k : K) (id : nat) (a m b eA eB : list (K * V)) (pv nx : option nat) : Prop := {
  pl_leaf : leaves (t_store T) !! id = Some (Some (mk_leaf (a ++ m ++ b) pv nx));
  pl_size : length (a ++ m ++ b) <= 64;
  pl_flat : flat t = (eA ++ a) ++ m ++ b ++ eB;
  pl_lt : Forall (fun x => kcmp x.1 k = Lt) (eA ++ a);
  pl_mid : m = [] \/ exists k' v', m = [(k', v')] /\ kcmp k' k = Eq;
  pl_gt : Forall (fun x => kcmp x.1 k = Gt) (b ++ eB);
  pl_search : exists r, leaf_locate_slot (mk_leaf (a ++ m ++ b) pv nx) (probe_key k) = Ok r /\
    r = match m with [] => RErr (length a) | _ => ROk (length a) end;
  pl_next : match nx with
            | None => eB = []
            | Some i => exists kv kvs pv' nx', leaves (t_store T) !! i = Some (Some (mk_leaf (kv :: kvs) pv' nx')) /\
                          head eB = Some kv
            end;
  pl_prev : match pv with
            | None => eA = []
            | Some i => exists kv kvs pv' nx', leaves (t_store T) !! i = Some (Some (mk_leaf (kvs ++ [kv]) pv' nx')) /\
                          list.last eA = Some kv
            end;
}.

Lemma place_exists T h t k : InvAt T h t -> exists id a m b eA eB pv nx, place T t k id a m b eA eB pv nx /\
  descend_to_leaf (descend_fuel (t_store T)) (t_store T) (t_root T) (probe_key k) = Ok id /\
  locate_leaf T k = Ok id /\
  forall id' l, leaves (t_store T) !! id' = Some (Some l) ->
    exists b', leaf_in_range l (probe_key k) = Ok b' /\ (b' = true -> id' = id).
Proof.
  intros HI. pose proof (probe_key_ok k) as Hp.
  destruct (home_exists rl ri SYNC T h t (probe_key k) HI (fun _ => Hp)) as (id & kvs & mA & mB & s1 & s2 & st & Hm).
  pose proof (fun id' l => in_range_home rl ri SYNC Hrl1 T h t _ id kvs mA mB s1 s2 st id' l HI Hm) as Hrange0.
  assert (forall id' l, leaves (t_store T) !! id' = Some (Some l) ->
    exists b', leaf_in_range l (probe_key k) = Ok b' /\ (b' = true -> id' = id)) as Hrange.
  { intros id' l Hl. destruct (Hrange0 id' l Hl) as (b' & E & Hb). exists b'. split; [done|]. intros ->. by apply Hb. }
  clear Hrange0.
  pose proof (descend_home rl ri SYNC T h t _ id kvs mA mB s1 s2 st HI Hm) as Hd.
  assert (locate_leaf T k = Ok id) as Hll.
  { unfold locate_leaf, try_cache.
    destruct (check_cache_ok rl ri SYNC Hrl1 _ _ _ _ _ _ _ _ _ _ _ (cached (t_store T)) ord_true HI Hm) as [->| ->]; rewrite obind_Ok; done. }
  pose proof (inv_segs rl ri SYNC Hrl1 T h t HI) as Hseg.
  pose proof (fun s1 id kvs s2 => inv_leaf rl ri SYNC T h t s1 id kvs s2 HI) as Hleaf.
  destruct Hm as [R Hst FA FB D Ef Esq EA EB El Hsz Hsk].
  specialize (FA I). specialize (FB I). specialize (Hsk I).
  apply mleft_elems in FA. apply mright_elems in FB.
  destruct (leaf_locate_ok _ kvs (last_id None s1) (hd_id s2 None) Hp Hsz Hsk) as (r & Er & Hr).
  assert (exists a m b, kvs = a ++ m ++ b /\ Forall (fun x => kcmp x.1 k = Lt) a /\
    (m = [] \/ exists k' v', m = [(k', v')] /\ kcmp k' k = Eq) /\ Forall (fun x => kcmp x.1 k = Gt) b /\
    r = match m with [] => RErr (length a) | _ => ROk (length a) end) as (a & m & b & Ek & Ha & Hmid & Hb & Er').
  { destruct r as [i|i].
    - destruct Hr as (a & k' & v & b & -> & -> & Ha & Hk & Hb). exists a, [(k', v)], b. split_and!; try done. right. eauto.
    - destruct Hr as (a & b & -> & -> & Ha & Hb). exists a, [], b. split_and!; try done. by left. }
  exists id, a, m, b, (elems mA), (elems mB), (last_id None s1), (hd_id s2 None).
  split; [|done]. subst kvs. split; try done.
  - rewrite Ef. by rewrite <- !app_assoc.
  - apply Forall_app. done.
  - apply Forall_app. done.
  - by eexists.
  - destruct s2 as [|[i kvs2] s2]; [done|]. simpl hd_id. cbn iota. destruct kvs2 as [|kv kvs2].
    + exfalso. destruct Hseg as [[j E]|E].
      * rewrite Esq in E. destruct s1 as [|? [|]]; done.
      * rewrite Esq in E. apply Forall_app in E as [_ E]. apply Forall_cons in E as [_ E]. by apply Forall_cons in E as [E _].
    + exists kv, kvs2. eexists _, _. rewrite <- EB. split; [|done].
      apply (Hleaf (s1 ++ [(id, a ++ m ++ b)])). rewrite Esq. by rewrite <- app_assoc.
  - destruct s1 as [|[i kvs1] s1 _] using rev_ind; [done|]. rewrite last_id_None. cbn [fst].
    destruct kvs1 as [|kv kvs1 _] using rev_ind.
    + exfalso. destruct Hseg as [[j E]|E].
      * rewrite Esq in E. destruct s1 as [|? [|]]; done.
      * rewrite Esq, <- app_assoc in E. apply Forall_app in E as [_ E]. by apply Forall_cons in E as [E _].
    + exists kv, kvs1. eexists _, _. rewrite <- EA. rewrite map_app, concat_app. simpl. rewrite app_nil_r, app_assoc, last_snoc.
      split; [|done]. apply (Hleaf s1). rewrite Esq. by rewrite <- app_assoc.
Qed.

Lemma cursor_locate_ok T h t (c : cursor) : InvAt T h t -> exists id a m b eA eB pv nx,
  place T t (c_key c) id a m b eA eB pv nx /\ cursor_locate_leaf T c = Ok (id, mk_leaf (a ++ m ++ b) pv nx).
Proof.
  intros HI. destruct (place_exists T h t (c_key c) HI) as (id & a & m & b & eA & eB & pv & nx & Hpl & Hd & Hl & Hr).
  exists id, a, m, b, eA, eB, pv, nx. split; [done|]. unfold cursor_locate_leaf, try_get_leaf.
  assert ((let! id0 := locate_leaf T (c_key c) in let! l := get_leaf (t_store T) id0 in Ok (id0, l)) =
    Ok (id, mk_leaf (a ++ m ++ b) pv nx)) as E.
  { rewrite Hl, obind_Ok. unfold get_leaf. by rewrite (pl_leaf _ _ _ _ _ _ _ _ _ _ _ Hpl). }
  destruct (leaves (t_store T) !! c_leaf c) as [[l|]|] eqn:El; rewrite ?obind_Ok; [|done|done].
  destruct (Hr _ _ El) as (b' & -> & Hb). rewrite !obind_Ok. destruct b'; [|done].
  rewrite (Hb eq_refl) in *. rewrite (pl_leaf _ _ _ _ _ _ _ _ _ _ _ Hpl) in El. by injection El as <-.
Qed.

Lemma hint_ok T t (c : cursor) id a m b eA eB pv nx : place T t (c_key c) id a m b eA eB pv nx ->
  cursor_hint_hits (mk_leaf (a ++ m ++ b) pv nx) c = Ok None \/
  exists k v, cursor_hint_hits (mk_leaf (a ++ m ++ b) pv nx) c = Ok (Some v) /\ m = [(k, v)] /\ c_off c = length a.
Proof.
  intros Hpl. unfold cursor_hint_hits, leaf_try_data_at. cbn [l_size mk_leaf].
  case_decide as Hd; [by left|]. destruct (lookup_lt_is_Some_2 (a ++ m ++ b) (c_off c)) as [[k v] E]; [lia|].
  change (mkLeaf _ _ _ _ _) with (mk_leaf (a ++ m ++ b) pv nx).
  rewrite (leaf_data_at_mk _ _ _ _ _ E), !obind_Ok. unfold key_eqb.
  destruct (kcmp k (c_key c)) eqn:Ek; [|by left..]. right. exists k, v. split; [done|].
  pose proof (pl_lt _ _ _ _ _ _ _ _ _ _ _ Hpl) as Hlt. pose proof (pl_gt _ _ _ _ _ _ _ _ _ _ _ Hpl) as Hgt.
  apply Forall_app in Hlt as [_ Hlt]. apply Forall_app in Hgt as [Hgt _].
  apply lookup_app_Some in E as [E|[Hla E]].
  { rewrite Forall_lookup in Hlt. apply Hlt in E. simpl in E. congruence. }
  apply lookup_app_Some in E as [E|[Hlm E]].
  - destruct (pl_mid _ _ _ _ _ _ _ _ _ _ _ Hpl) as [->|(k' & v' & -> & _)]; [done|].
    destruct (c_off c - length a) as [|n] eqn:En; [|done]. injection E as -> ->. split; [done|lia].
  - rewrite Forall_lookup in Hgt. apply Hgt in E. simpl in E. congruence.
Qed.

Lemma place_get T t k id a m b eA eB pv nx : place T t k id a m b eA eB pv nx ->
  spec_get (probe_key k) (flat t) = snd <$> head m.
Proof.
  intros H. rewrite (pl_flat _ _ _ _ _ _ _ _ _ _ _ H). rewrite spec_get_mid.
  - destruct (pl_mid _ _ _ _ _ _ _ _ _ _ _ H) as [->|(k' & v' & -> & E)]; [done|]. simpl. unfold probe_key. by rewrite E.
  - eapply Forall_impl; [apply (pl_lt _ _ _ _ _ _ _ _ _ _ _ H)|]. intros x Hx. unfold probe_key. congruence.
  - eapply Forall_impl; [apply (pl_gt _ _ _ _ _ _ _ _ _ _ _ H)|]. intros x Hx. unfold probe_key. congruence.
Qed.
Lemma place_succ T t k id a m b eA eB pv nx : place T t k id a m b eA eB pv nx ->
  spec_succ k (flat t) = head (b ++ eB).
Proof.
  intros H. rewrite (pl_flat _ _ _ _ _ _ _ _ _ _ _ H), app_assoc. apply spec_succ_split; [|apply H].
  apply Forall_app. split.
  - eapply Forall_impl; [apply (pl_lt _ _ _ _ _ _ _ _ _ _ _ H)|]. intros x Hx. simpl in *. congruence.
  - destruct (pl_mid _ _ _ _ _ _ _ _ _ _ _ H) as [->|(k' & v' & -> & E)]; constructor; [|done]. simpl. congruence.
Qed.
Lemma place_pred T t k id a m b eA eB pv nx : place T t k id a m b eA eB pv nx ->
  spec_pred k (flat t) = list.last (eA ++ a).
Proof.
  intros H. rewrite (pl_flat _ _ _ _ _ _ _ _ _ _ _ H). apply spec_pred_split; [apply H|].
  apply Forall_app. split.
  - destruct (pl_mid _ _ _ _ _ _ _ _ _ _ _ H) as [->|(k' & v' & -> & E)]; constructor; [|done]. simpl. congruence.
  - eapply Forall_impl; [apply (pl_gt _ _ _ _ _ _ _ _ _ _ _ H)|]. intros x Hx. simpl in *. congruence.
Qed.

Lemma locate_value_ok T t k id a m b eA eB pv nx : place T t k id a m b eA eB pv nx ->
  leaf_locate_slot_with_value (mk_leaf (a ++ m ++ b) pv nx) (probe_key k) = Ok (length a, snd <$> head m).
Proof.
  intros H. unfold leaf_locate_slot_with_value. destruct (pl_search _ _ _ _ _ _ _ _ _ _ _ H) as (r & -> & ->). rewrite obind_Ok.
  destruct (pl_mid _ _ _ _ _ _ _ _ _ _ _ H) as [->|(k' & v' & -> & E)]; [done|]. cbn [l_vals mk_leaf].
  rewrite (slot_get_mk _ _ _ v'); [done|]. eapply valsof_lookup. by apply lookup_middle'.
Qed.

(** The part of a cursor result a caller sees. *)
Definition at_entry (r : cursor * V) : K * V := (c_key r.1, r.2).

Lemma cursor_next_ok T h t (c : cursor) : InvAt T h t ->
  exists r, cursor_next_with_value T c = Ok r /\ at_entry <$> r = spec_succ (c_key c) (flat t).
Proof.
  intros HI. destruct (cursor_locate_ok T h t c HI) as (id & a & m & b & eA & eB & pv & nx & Hpl & El).
  unfold cursor_next_with_value. rewrite El, obind_Ok.
  assert (forall X (f : nat -> outcome X),
     (let! hh := cursor_hint_hits (mk_leaf (a ++ m ++ b) pv nx) c in
      let! off := match hh with Some _ => Ok (c_off c + 1)
                  | None => let! '(o, v) := leaf_locate_slot_with_value (mk_leaf (a ++ m ++ b) pv nx) (probe_key (c_key c)) in
                            Ok (match v with Some _ => o + 1 | None => o end) end in f off) = f (length (a ++ m))) as Eoff.
  { intros X f. destruct (hint_ok _ _ _ _ _ _ _ _ _ _ _ Hpl) as [->|(k & v & -> & -> & ->)]; rewrite !obind_Ok.
    - rewrite (locate_value_ok _ _ _ _ _ _ _ _ _ _ _ Hpl), !obind_Ok. rewrite app_length.
      destruct (pl_mid _ _ _ _ _ _ _ _ _ _ _ Hpl) as [->|(k' & v' & -> & E)]; simpl; [by rewrite Nat.add_0_r|done].
    - by rewrite app_length. }
  rewrite Eoff. rewrite (place_succ _ _ _ _ _ _ _ _ _ _ _ Hpl). cbn [l_size l_next mk_leaf].
  destruct b as [|kv b].
  - rewrite decide_False by (rewrite app_nil_r; lia). pose proof (pl_next _ _ _ _ _ _ _ _ _ _ _ Hpl) as Hn.
    cbn [app]. destruct nx as [i|].
    + destruct Hn as (kv & kvs & pv' & nx' & El' & ->). unfold get_leaf. rewrite El', obind_Ok.
      rewrite (leaf_data_at_mk _ _ _ _ kv) by done. rewrite obind_Ok. destruct kv. eexists. split; [done|]. done.
    + subst eB. eexists. split; done.
  - change (mkLeaf _ _ _ _ _) with (mk_leaf (a ++ m ++ kv :: b) pv nx).
    rewrite decide_True by (rewrite !app_length; simpl; lia).
    rewrite (leaf_data_at_mk _ _ _ _ kv) by (rewrite app_assoc; by apply lookup_middle'). rewrite obind_Ok.
    destruct kv. eexists. split; done.
Qed.

Lemma cursor_prev_ok T h t (c : cursor) : InvAt T h t ->
  exists r, cursor_prev_with_value T c = Ok r /\ at_entry <$> r = spec_pred (c_key c) (flat t).
Proof.
  intros HI. destruct (cursor_locate_ok T h t c HI) as (id & a & m & b & eA & eB & pv & nx & Hpl & El).
  unfold cursor_prev_with_value. rewrite El, obind_Ok.
  assert (forall X (f : nat -> outcome X),
     (let! hh := cursor_hint_hits (mk_leaf (a ++ m ++ b) pv nx) c in
      let! off := match hh with Some _ => Ok (c_off c)
                  | None => let! r := leaf_locate_slot (mk_leaf (a ++ m ++ b) pv nx) (probe_key (c_key c)) in
                            Ok (match r with ROk o => o | RErr o => o end) end in f off) = f (length a)) as Eoff.
  { intros X f. destruct (hint_ok _ _ _ _ _ _ _ _ _ _ _ Hpl) as [->|(k & v & -> & -> & ->)]; rewrite !obind_Ok; [|done].
    destruct (pl_search _ _ _ _ _ _ _ _ _ _ _ Hpl) as (r & -> & ->). rewrite !obind_Ok. by destruct m. }
  rewrite Eoff. rewrite (place_pred _ _ _ _ _ _ _ _ _ _ _ Hpl). cbn [l_prev mk_leaf].
  destruct a as [|kv a _] using rev_ind.
  - rewrite decide_False by (simpl; lia). pose proof (pl_prev _ _ _ _ _ _ _ _ _ _ _ Hpl) as Hn. rewrite app_nil_r.
    destruct pv as [i|].
    + destruct Hn as (kv & kvs & pv' & nx' & El' & ->). unfold get_leaf. rewrite El', obind_Ok.
      cbn [l_size mk_leaf]. rewrite app_length, Nat.add_1_r. cbn [usize_pred]. rewrite !obind_Ok.
      rewrite (leaf_data_at_mk _ _ _ _ kv) by (by apply lookup_middle'). rewrite obind_Ok. destruct kv. eexists. split; done.
    + subst eA. rewrite obind_Ok. eexists. split; done.
  - rewrite (app_assoc eA), last_snoc. rewrite app_length, Nat.add_1_r. rewrite decide_True by lia. rewrite obind_Ok.
    rewrite (leaf_data_at_mk _ _ _ _ kv); [|simpl; rewrite <- app_assoc; apply lookup_middle'; lia].
    rewrite obind_Ok. destruct kv. eexists. split; done.
Qed.

Lemma cursor_value_ok T h t (c : cursor) : InvAt T h t ->
  cursor_value T c = Ok (spec_get (probe_key (c_key c)) (flat t)).
Proof.
  intros HI. destruct (cursor_locate_ok T h t c HI) as (id & a & m & b & eA & eB & pv & nx & Hpl & El).
  unfold cursor_value. rewrite El, obind_Ok. rewrite (place_get _ _ _ _ _ _ _ _ _ _ _ Hpl).
  destruct (hint_ok _ _ _ _ _ _ _ _ _ _ _ Hpl) as [->|(k & v & -> & -> & _)]; rewrite obind_Ok; [|done].
  by rewrite (locate_value_ok _ _ _ _ _ _ _ _ _ _ _ Hpl), obind_Ok.
Qed.

Lemma get_cursor_ok T h t k : InvAt T h t ->
  exists c : cursor, get_cursor T k = Ok (c, spec_get (probe_key k) (flat t)) /\ c_key c = k.
Proof.
  intros HI. destruct (place_exists T h t k HI) as (id & a & m & b & eA & eB & pv & nx & Hpl & Hd & _ & _).
  unfold get_cursor. rewrite Hd, obind_Ok. unfold get_leaf. rewrite (pl_leaf _ _ _ _ _ _ _ _ _ _ _ Hpl), obind_Ok.
  rewrite (locate_value_ok _ _ _ _ _ _ _ _ _ _ _ Hpl), obind_Ok. rewrite (place_get _ _ _ _ _ _ _ _ _ _ _ Hpl).
  eexists. split; done.
Qed.

Lemma cursor_first_ok T h t : InvAt T h t -> flat t <> [] ->
  exists r, cursor_first_with_value T = Ok (Some r) /\ Some (at_entry r) = head (flat t).
Proof.
  intros HI Hne. unfold cursor_first_with_value.
  destruct (first_leaf_ok rl ri SYNC Hrl1 _ _ _ HI) as (id & kvs & rest & Es & ->). rewrite obind_Ok.
  unfold get_leaf. rewrite (inv_leaf rl ri SYNC _ _ _ [] _ _ _ HI Es), obind_Ok.
  destruct (inv_segs rl ri SYNC Hrl1 _ _ _ HI) as [[i E]|E].
  - exfalso. apply Hne. unfold flat. by rewrite E.
  - unfold flat. rewrite Es in E |- *. apply Forall_cons in E as [E _]. simpl in E. destruct kvs as [|[k v] kvs]; [done|].
    rewrite (leaf_data_at_mk _ _ _ _ (k, v)) by done. rewrite obind_Ok. eexists. split; done.
Qed.
Lemma cursor_last_ok T h t : InvAt T h t -> flat t <> [] ->
  exists r, cursor_last_with_value T = Ok (Some r) /\ Some (at_entry r) = list.last (flat t).
Proof.
  intros HI Hne. unfold cursor_last_with_value.
  destruct (last_leaf_ok rl ri SYNC Hrl1 _ _ _ HI) as (id & kvs & rest & Es & ->). rewrite obind_Ok.
  unfold get_leaf. rewrite (inv_leaf rl ri SYNC _ _ _ rest _ _ [] HI Es), obind_Ok.
  destruct (inv_segs rl ri SYNC Hrl1 _ _ _ HI) as [[i E]|E].
  - exfalso. apply Hne. unfold flat. by rewrite E.
  - unfold flat. rewrite Es in E |- *. apply Forall_app in E as [_ E]. apply Forall_cons in E as [E _]. simpl in E.
    destruct (exists_last E) as (kvs' & [k v] & ->).
    cbn [l_size mk_leaf]. rewrite app_length, Nat.add_1_r. cbn [usize_pred]. rewrite obind_Ok.
    rewrite (leaf_data_at_mk _ _ _ _ (k, v)) by (by apply lookup_middle'). rewrite obind_Ok.
    rewrite map_app, concat_app. simpl. rewrite app_nil_r, app_assoc, last_snoc. eexists. split; done.
Qed.
End Inv.
End CursorProof.
