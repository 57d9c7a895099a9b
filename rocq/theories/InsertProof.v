(** Insertion: the leaf step, the ascent, and the invariant. *)
From stdpp Require Import list sorting.
From Verif Require Import Base Slots BinSearch LeafNode InnerNode Store Tree Remove InsertParts
  SlotLemmas NodeLemmas Spec AnySpec Order Logical Descent.

Section Insert.
Context {K V A : Type} {KO : KeyOps K} {PF : Profile} {OM : OrdMode} {OI : OrdIf K} {AO : AugOps K V A}.
Notation tr := (tr K V).
Notation mark := (K * option V)%type.
Notation seg := (nat * list (K * V))%type.

(** ** Leaf storage *)
Definition lvok (ls : list (option (leaf K V))) (s : seg) : Prop :=
  exists p n, ls !! s.1 = Some (Some (mk_leaf s.2 p n)) /\ length s.2 <= 64.

Lemma lrep_lookup (ls : list (option (leaf K V))) pre id kvs post : lrep ls (pre ++ (id, kvs) :: post) ->
  ls !! id = Some (Some (mk_leaf kvs (last_id None pre) (hd_id post None))).
Proof. intros [H _ _]. by apply linked_lookup in H. Qed.

Lemma last_id_in p (segs : list seg) i : last_id p segs = Some i -> i ∈ map fst segs \/ p = Some i.
Proof.
  revert p. induction segs as [|s segs IH]; simpl; intros p H; [by right|].
  left. destruct (IH _ H) as [?|E]; [by constructor|]. injection E as ->. constructor.
Qed.
Lemma hd_id_in n (segs : list seg) i : hd_id segs n = Some i -> i ∈ map fst segs \/ n = Some i.
Proof. destruct segs as [|s segs]; simpl; intros H; [by right|]. left. injection H as ->. constructor. Qed.

(** Replacing the entries of one leaf. *)
Lemma lrep_update (ls : list (option (leaf K V))) pre id kvs kvs' post :
  lrep ls (pre ++ (id, kvs) :: post) ->
  lrep (<[id := Some (mk_leaf kvs' (last_id None pre) (hd_id post None))]> ls) (pre ++ (id, kvs') :: post).
Proof.
  intros [H1 H2 H3]. rewrite map_app in *. simpl in *.
  assert (id < length ls) as Hlt by (eapply lookup_lt_Some, linked_lookup; done).
  apply linked_app in H1 as [L1 L2]. simpl in L1, L2. destruct L2 as [L2 L3].
  apply NoDup_app in H2 as (N1 & N2 & N3). pose proof N3 as N3'. apply NoDup_cons in N3' as [N4 _].
  split.
  - apply linked_app. simpl. split_and!.
    + eapply linked_frame; [done|]. intros i Hi. apply list_lookup_insert_ne.
      intros ->. apply (N2 i); [done|by constructor].
    + by rewrite list_lookup_insert.
    + eapply linked_frame; [done|]. intros i Hi. apply list_lookup_insert_ne.
      intros ->. done.
  - rewrite map_app. simpl. apply NoDup_app. done.
  - intros i l Hi. rewrite map_app. simpl. destruct (decide (i = id)) as [->|Hne].
    + apply elem_of_app. right. constructor.
    + rewrite list_lookup_insert_ne in Hi by done. by eapply H3.
Qed.

(** Setting the [prev] link of the leaf behind a position. *)
Definition set_next_prev (ls : list (option (leaf K V))) (post : list seg) (q : option nat) :=
  match post with
  | [] => ls
  | s :: post' => <[s.1 := Some (mk_leaf s.2 q (hd_id post' None))]> ls
  end.
Lemma set_next_prev_ne ls post q i : i ∉ map fst post -> set_next_prev ls post q !! i = ls !! i.
Proof.
  destruct post as [|s post]; simpl; [done|]. intros H. apply list_lookup_insert_ne.
  intros E. apply H. rewrite E. constructor.
Qed.
Lemma set_next_prev_length ls post q : length (set_next_prev ls post q) = length ls.
Proof. destruct post; simpl; [done|]. apply insert_length. Qed.
Lemma set_next_prev_linked ls p q post : linked ls p post None -> NoDup (map fst post) ->
  linked (set_next_prev ls post q) q post None.
Proof. destruct post as [|s post]; [done|]. apply linked_set_prev. Qed.

Lemma lrep_fresh (ls : list (option (leaf K V))) segs : lrep ls segs -> length ls ∉ map fst segs.
Proof.
  intros [H1 _ _] Hi. apply elem_of_list_fmap in Hi as ([i kv] & E & Hi). simpl in E. subst i.
  apply elem_of_list_split in Hi as (x & y & ->). apply linked_lookup, lookup_lt_Some in H1. lia.
Qed.

(** Splitting a leaf: the new leaf gets a fresh id. *)
Lemma lrep_split (ls ls' : list (option (leaf K V))) pre id kvs l r post rid :
  lrep ls (pre ++ (id, kvs) :: post) -> rid = length ls ->
  ls' = <[rid := Some (mk_leaf r (Some id) (hd_id post None))]>
    (set_next_prev (<[id := Some (mk_leaf l (last_id None pre) (Some rid))]> (ls ++ [None])) post (Some rid)) ->
  lrep ls' (pre ++ (id, l) :: (rid, r) :: post).
Proof.
  intros [H1 H2 H3] -> ->. rewrite map_app in *. simpl in *.
  assert (id < length ls) as Hlt by (eapply lookup_lt_Some, linked_lookup; done).
  assert (forall i, i ∈ map fst pre ++ id :: map fst post -> i < length ls) as Hlts.
  { intros i Hi. change (id :: map fst post) with (map fst ((id, kvs) :: post)) in Hi.
    rewrite <- map_app in Hi. apply elem_of_list_fmap in Hi as ([i' kv] & -> & Hi).
    apply elem_of_list_split in Hi as (x & y & E). rewrite E in H1.
    by apply linked_lookup, lookup_lt_Some in H1. }
  apply linked_app in H1 as [L1 L2]. simpl in L1, L2. destruct L2 as [L2 L3].
  apply NoDup_app in H2 as (N1 & N2 & N3). apply NoDup_cons in N3 as [N4 N5].
  assert (forall i, i ∈ map fst pre -> i <> id /\ i ∉ map fst post /\ i <> length ls) as Hpre.
  { intros i Hi. split_and!.
    - intros ->. apply (N2 id); [done|by constructor].
    - intros Hp. apply (N2 i); [done|by constructor].
    - assert (i < length ls); [|lia]. apply Hlts, elem_of_app. by left. }
  assert (forall i, i ∈ map fst post -> i <> id /\ i <> length ls) as Hpost.
  { intros i Hi. split; [by intros ->|]. assert (i < length ls); [|lia].
    apply Hlts, elem_of_app. right. by constructor. }
  split.
  - apply linked_app. simpl. split_and!.
    + eapply linked_frame; [done|]. intros i Hi. destruct (Hpre i Hi) as (X1 & X2 & X3).
      rewrite list_lookup_insert_ne by done. rewrite set_next_prev_ne by done.
      rewrite list_lookup_insert_ne by done.
      apply lookup_app_l, Hlts, elem_of_app. by left.
    + rewrite list_lookup_insert_ne by lia. rewrite set_next_prev_ne by done.
      rewrite list_lookup_insert; [done|]. rewrite app_length. simpl. lia.
    + rewrite list_lookup_insert; [done|]. rewrite set_next_prev_length, insert_length, app_length. simpl. lia.
    + eapply (linked_frame (set_next_prev (<[id := Some (mk_leaf l (last_id None pre) (Some (length ls)))]> (ls ++ [None])) post (Some (length ls)))).
      * apply (set_next_prev_linked _ (Some id)); [|done].
        eapply linked_frame; [done|]. intros i Hi. destruct (Hpost i Hi).
        rewrite list_lookup_insert_ne by done.
        apply lookup_app_l, Hlts, elem_of_app. right. by constructor.
      * intros i Hi. destruct (Hpost i Hi). by rewrite list_lookup_insert_ne.
  - rewrite map_app. simpl. apply NoDup_app. split_and!; [done| |].
    + intros i Hi. destruct (Hpre i Hi) as (X1 & X2 & X3).
      rewrite !elem_of_cons. naive_solver.
    + apply NoDup_cons. split.
      * rewrite elem_of_cons. intros [?|?]; [lia|done].
      * apply NoDup_cons. split; [|done]. intros Hi. by destruct (Hpost _ Hi).
  - intros i lf Hi. rewrite map_app. simpl. rewrite elem_of_app, !elem_of_cons.
    destruct (decide (i = length ls)) as [->|X1]; [by right; right; left|].
    destruct (decide (i = id)) as [->|X2]; [by right; left|].
    destruct (decide (i ∈ map fst post)) as [X3|X3]; [by right; right; right|].
    rewrite list_lookup_insert_ne, set_next_prev_ne, list_lookup_insert_ne in Hi by done.
    destruct (decide (i < length ls)).
    + rewrite lookup_app_l in Hi by done. apply H3 in Hi.
      rewrite elem_of_app, elem_of_cons in Hi. tauto.
    + rewrite lookup_ge_None_2 in Hi; [done|]. rewrite app_length. simpl. lia.
Qed.

(** ** Augmentation of a child *)
Context (rl ri : nat) (SYNC : Prop).
Notation shape := (shape rl ri).
Notation nshape := (nshape rl ri).
Notation irep := (irep SYNC).
Notation node_rep := (node_rep SYNC).

Lemma new_aug_ok (s : store K V A) h (t : tr) m b :
  irep (inners s) h t -> nshape m b h t -> Forall (lvok (leaves s)) (leaf_seq t) ->
  exists a, new_augmentation_for_id s (nid t) = Ok a /\ (SYNC -> a = aug_of t).
Proof.
  destruct h as [|h], t as [id kvs|id ks ch]; try done; simpl.
  - intros _ Hn Hl. apply Forall_cons in Hl as [(p & n & E & Hl) _]. simpl in *.
    unfold get_leaf. rewrite E, obind_Ok, leaf_keys_mk by done. rewrite obind_Ok, leaf_values_mk by done.
    rewrite obind_Ok. eauto.
  - intros [Hr _] (Hk & Hc & _) _.
    destruct (node_rep_fits _ _ _ _ _ Hr (proj2 Hk) Hc) as (aus & E & Hf & Ha).
    unfold get_inner. rewrite E, obind_Ok, inner_keys_mk by done. rewrite obind_Ok, inner_augmentations_mk by done.
    rewrite obind_Ok. eexists; split; [done|]. intros H. by rewrite (Ha H).
Qed.

(** ** The leaf step *)
Definition up_val (r : insert_result K V) : option V :=
  match r with IrUpdated v => Some v | _ => None end.

Lemma spec_insert_mid k v (a b c : list (K * V)) :
  Forall (fun x => kcmp x.1 k = Lt) a ->
  spec_insert k v (a ++ b) = a ++ spec_insert k v b.
Proof.
  induction 1 as [|[k' v'] a H Hf IH]; simpl; [done|]. simpl in H. by rewrite H, IH.
Qed.
Lemma spec_insert_right k v (b c : list (K * V)) :
  Forall (fun x => kcmp x.1 k = Gt) c ->
  spec_insert k v (b ++ c) = spec_insert k v b ++ c.
Proof.
  intros Hc. induction b as [|[k' v'] b IH]; simpl.
  - destruct Hc as [|[k' v'] c H Hc]; simpl; [done|]. simpl in H. by rewrite H.
  - destruct (kcmp k' k); simpl; [done| |done]. by rewrite IH.
Qed.
Lemma spec_get_mid p (a b c : list (K * V)) :
  Forall (fun x => p x.1 <> Eq) a -> Forall (fun x => p x.1 <> Eq) c ->
  spec_get p (a ++ b ++ c) = spec_get p b.
Proof.
  intros Ha Hc. assert (spec_get p c = None) as Hn.
  { clear Ha. induction Hc as [|[k v] c H Hf IH]; simpl; [done|]. simpl in H. by destruct (p k). }
  induction Ha as [|[k v] a H Hf IH]; simpl.
  - induction b as [|[k v] b IH]; simpl; [done|]. by rewrite IH.
  - simpl in H. by destruct (p k).
Qed.

Definition kv_lt p (x : K * V) := p (fst x) = Lt.

Lemma bs_spec_kvs p kvs r : bs_spec p (keysof kvs) r ->
  match r with
  | ROk i => exists a k v b, kvs = a ++ (k, v) :: b /\ i = length a /\
      Forall (fun x => p x.1 = Lt) a /\ p k = Eq /\ Forall (fun x => p x.1 = Gt) b
  | RErr i => exists a b, kvs = a ++ b /\ i = length a /\
      Forall (fun x => p x.1 = Lt) a /\ Forall (fun x : K * V => p x.1 = Gt) b
  end.
Proof.
  destruct r as [i|i]; simpl.
  - intros (a & x & b & E & Hi & Ha & Hx & Hb).
    apply map_eq_app in E as (a' & b0 & -> & <- & E). apply map_eq_cons in E as ([k v] & b' & -> & <- & <-).
    rewrite map_length in Hi. rewrite Forall_map in Ha, Hb.
    exists a', k, v, b'. split_and!; auto.
  - intros (a & b & E & Hi & Ha & Hb). apply map_eq_app in E as (a' & b' & -> & <- & <-).
    rewrite map_length in Hi. rewrite Forall_map in Ha, Hb. exists a', b'. split_and!; auto.
Qed.

Lemma bs_any_kvs p (kvs : list (K * V)) r : bs_any p (keysof kvs) r ->
  match r with
  | ROk i => exists a k v b, kvs = a ++ (k, v) :: b /\ i = length a /\ p k = Eq /\
      (psorted p (keysof kvs) -> Forall (fun x => p x.1 = Lt) a /\ Forall (fun x => p x.1 = Gt) b)
  | RErr i => exists a b, kvs = a ++ b /\ i = length a /\
      (psorted p (keysof kvs) -> Forall (fun x => p x.1 = Lt) a /\ Forall (fun x : K * V => p x.1 = Gt) b)
  end.
Proof.
  destruct r as [i|i]; simpl.
  - intros (a & x & b & E & Hi & Hx & Hab). apply map_eq_app in E as (a' & b0 & -> & <- & E). apply map_eq_cons in E as ([k v] & b' & -> & <- & <-).
    rewrite map_length in Hi. rewrite !Forall_map in Hab.
    exists a', k, v, b'. split_and!; auto.
  - intros (a & b & E & Hi & Hab). apply map_eq_app in E as (a' & b' & -> & <- & <-).
    rewrite map_length in Hi. rewrite !Forall_map in Hab. exists a', b'. split_and!; auto.
Qed.

Lemma sortedm_emark_psorted {OL : OrdLaws K} p (kvs : list (K * V)) : probe_ok p -> sortedm (map emark kvs) -> psorted p (keysof kvs).
Proof.
  intros Hp H. apply sorted_psorted; [done|]. apply sortedm_elems in H. rewrite elems_emark in H.
  unfold ascending in H. unfold keysof. induction H as [|x l Hs IH Hf]; simpl; constructor; [done|].
  rewrite Forall_map. done.
Qed.

(** What [leaf_locate_slot] finds in a represented leaf. *)
Lemma leaf_locate_any p kvs pv nx : (ORD -> probe_ok p) -> length kvs <= 64 -> (ORD -> sortedm (map emark kvs)) ->
  exists r, leaf_locate_slot (mk_leaf kvs pv nx) p = Ok r /\
  match r with
  | ROk i => exists a k v b, kvs = a ++ (k, v) :: b /\ i = length a /\ p k = Eq /\
      (ORD -> Forall (fun x => p x.1 = Lt) a /\ Forall (fun x => p x.1 = Gt) b)
  | RErr i => exists a b, kvs = a ++ b /\ i = length a /\
      (ORD -> Forall (fun x => p x.1 = Lt) a /\ Forall (fun x : K * V => p x.1 = Gt) b)
  end.
Proof.
  intros Hp Hl Hs. rewrite leaf_locate_slot_mk by done.
  destruct (binary_search_any p (keysof kvs)) as (r & E & Hr).
  exists r. split; [done|]. apply bs_any_kvs in Hr.
  assert (ORD -> psorted p (keysof kvs)) as Ho.
  { intros HO. pose proof (ord_if HO). apply sortedm_emark_psorted; auto. }
  destruct r as [i|i].
  - destruct Hr as (a & k & v & b & X1 & X2 & X3 & X4). exists a, k, v, b. split_and!; auto.
  - destruct Hr as (a & b & X1 & X2 & X3). exists a, b. split_and!; auto.
Qed.

Lemma leaf_locate_ok {OL : OrdLaws K} p kvs pv nx : probe_ok p -> length kvs <= 64 -> sortedm (map emark kvs) ->
  exists r, leaf_locate_slot (mk_leaf kvs pv nx) p = Ok r /\
  match r with
  | ROk i => exists a k v b, kvs = a ++ (k, v) :: b /\ i = length a /\
      Forall (fun x => p x.1 = Lt) a /\ p k = Eq /\ Forall (fun x => p x.1 = Gt) b
  | RErr i => exists a b, kvs = a ++ b /\ i = length a /\
      Forall (fun x => p x.1 = Lt) a /\ Forall (fun x : K * V => p x.1 = Gt) b
  end.
Proof.
  intros Hp Hl Hs. rewrite leaf_locate_slot_mk by done.
  destruct (binary_search_ok p (keysof kvs)) as (r & E & Hr); [by apply sortedm_emark_psorted|].
  exists r. split; [done|]. by apply bs_spec_kvs.
Qed.

(** New segments of the leaf, and the marks they contribute. *)
Definition leaf_res id (kvs' : list (K * V)) (r : insert_result K V) (M : list mark) (L : list seg) (rid : nat) : Prop :=
  match r with
  | IrSplit key c => exists l k0 v0 r', c = NLeaf rid /\ key = k0 /\
      kvs' = l ++ (k0, v0) :: r' /\ 16 <= length l <= 64 /\ 16 <= length ((k0, v0) :: r') <= 64 /\
      M = map emark l ++ (k0, None) :: map emark ((k0, v0) :: r') /\
      L = [(id, l); (rid, (k0, v0) :: r')]
  | _ => M = map emark kvs' /\ L = [(id, kvs')] /\ length kvs' <= 64
  end.

(** Writing at the slot the search returned. *)
Lemma insert_leaf_at_ok (s : store K V A) pre id kvs post k v r :
  lrep (leaves s) (pre ++ (id, kvs) :: post) -> length kvs <= 64 ->
  forall kvs' o, match r with
    | ROk i => exists a k' v' b, kvs = a ++ (k', v') :: b /\ i = length a /\ kvs' = a ++ (k', v) :: b /\ o = Some v'
    | RErr i => exists a b, kvs = a ++ b /\ i = length a /\ kvs' = a ++ (k, v) :: b /\ o = None
    end ->
  exists r' s' M L,
    insert_leaf_at s id (mk_leaf kvs (last_id None pre) (hd_id post None)) k v r = Ok (r', s') /\ inners s' = inners s /\
    up_val r' = o /\ leaf_res id kvs' r' M L (length (leaves s)) /\
    lrep (leaves s') (pre ++ L ++ post).
Proof.
  intros Hl Hlen kvs' o Hr. pose proof (lrep_lookup _ _ _ _ _ Hl) as E.
  assert (id < length (leaves s)) as Hlt by (by eapply lookup_lt_Some).
  unfold insert_leaf_at, leaf_upsert_at.
  destruct r as [i|i].
  - destruct Hr as (a & k' & v' & b & Ek & -> & -> & ->).
    cbn [l_vals mk_leaf]. rewrite (slot_replace_mk _ _ _ _ v') by (rewrite Ek; unfold valsof; rewrite map_app; by apply lookup_middle'; rewrite map_length).
    rewrite !obind_Ok. cbn [l_size l_keys l_vals l_prev l_next mk_leaf].
    eexists _, _, _, _. split_and!; [done|done|done| |].
    + split_and!; [done|done|]. rewrite Ek, app_length in Hlen. by rewrite app_length.
    + cbn [leaves put_leaf set_leaves].
      replace (mkLeaf _ _ _ _ _) with (mk_leaf (a ++ (k', v) :: b) (last_id None pre) (hd_id post None)).
      * by eapply lrep_update.
      * unfold mk_leaf. f_equal.
        -- rewrite Ek, !app_length. done.
        -- rewrite Ek. unfold keysof. by rewrite !map_app.
        -- rewrite Ek. unfold valsof. rewrite !map_app. f_equal. simpl.
           by rewrite insert_middle' by (by rewrite map_length).
  - destruct Hr as (a & b & Ek & -> & -> & ->).
    unfold leaf_is_full. cbn [l_size l_keys l_vals l_prev l_next mk_leaf].
    assert (linsert (length a) (k, v) kvs = a ++ (k, v) :: b) as Eli by (rewrite Ek; apply linsert_app).
    assert (length (a ++ (k, v) :: b) = S (length kvs)) as Hlen' by (rewrite Ek, !app_length; simpl; lia).
    destruct (decide (length kvs = 64)) as [Hfull|Hfull].
    + rewrite bool_decide_true by done. cbn [negb]. rewrite obind_Ok. cbn iota.
      cbn [reserve_leaf].
      destruct (leaf_split_mk kvs (last_id None pre) (hd_id post None) (length a) (k, v) (length (leaves s)) id)
        as (l & r & Esplit & Elr & Hl1 & Hr1); [done| |].
      { rewrite Ek, app_length in Hfull. unfold LEAF_N. lia. }
      unfold reserve_leaf. cbn [put_leaf set_leaves leaves].
      rewrite insert_length. unfold get_leaf at 1. cbn [leaves set_leaves].
      rewrite lookup_app_l by (by rewrite insert_length).
      rewrite list_lookup_insert by done. rewrite obind_Ok, Esplit, obind_Ok.
      destruct r as [|[k0 v0] r']; [simpl in Hr1; destruct (decide _); done|].
      rewrite (leaf_data_at_mk _ _ _ _ (k0, v0)) by done. rewrite obind_Ok.
      cbn [l_next mk_leaf]. unfold put_leaf, set_leaves. cbn [leaves inners cached].
      set (ls2 := <[id:=Some (mk_leaf l (last_id None pre) (Some (length (leaves s))))]>
                 (<[id:=Some (mk_leaf kvs (last_id None pre) (hd_id post None))]> (leaves s) ++ [None])).
      assert (ls2 = <[id:=Some (mk_leaf l (last_id None pre) (Some (length (leaves s))))]> (leaves s ++ [None])) as Els2.
      { unfold ls2. rewrite (list_insert_id (leaves s)) by done. done. }
      assert (exists s3, match hd_id post None with
        | Some next =>
            let! nl := get_leaf (mkStore (inners s) ls2 (cached s)) next in
            Ok (mkStore (inners s) (<[next := Some (leaf_set_prev nl (Some (length (leaves s))))]> ls2) (cached s))
        | None => Ok (mkStore (inners s) ls2 (cached s))
        end = Ok s3 /\ inners s3 = inners s /\ leaves s3 = set_next_prev ls2 post (Some (length (leaves s)))) as (s3 & Es3 & Hi3 & Hl3).
      { destruct post as [|[nx nkvs] post']; simpl.
        - eexists; split_and!; done.
        - assert (ls2 !! nx = Some (Some (mk_leaf nkvs (Some id) (hd_id post' None)))) as Enx.
          { rewrite Els2. destruct Hl as [L1 L2 _].
            pose proof L1 as L1'. change ((id, kvs) :: (nx, nkvs) :: post') with ([(id, kvs)] ++ (nx, nkvs) :: post') in L1'. rewrite app_assoc in L1'.
            apply linked_lookup in L1'. rewrite last_id_app in L1'. simpl in L1'.
            rewrite list_lookup_insert_ne.
            - rewrite lookup_app_l by (by eapply lookup_lt_Some). done.
            - rewrite map_app in L2. apply NoDup_app in L2 as (_ & _ & L2). simpl in L2.
              apply NoDup_cons in L2 as [L2 _]. intros ->. apply L2. constructor. }
          unfold get_leaf. cbn [leaves]. rewrite Enx, obind_Ok, leaf_set_prev_mk.
          eexists; split_and!; done. }
      rewrite Es3, obind_Ok. unfold assign_leaf.
      assert (leaves s3 !! length (leaves s) = Some None) as ->.
      { pose proof (lrep_fresh _ _ Hl) as Hfr. rewrite map_app, not_elem_of_app in Hfr. destruct Hfr as [_ Hfr].
        apply not_elem_of_cons in Hfr as [Hfr1 Hfr2]. cbn [fst] in Hfr1.
        rewrite Hl3, set_next_prev_ne, Els2, list_lookup_insert_ne by done. by apply lookup_middle'. }
      rewrite !obind_Ok.
      eexists _, _, _, _. split_and!; [done| |done| |].
      * simpl. done.
      * exists l, k0, v0, r'. split_and!; try done.
        -- by rewrite Elr.
        -- destruct (decide _); lia.
        -- destruct (decide _); lia.
        -- destruct (decide _); lia.
        -- destruct (decide _); lia.
      * cbn [cache_leaf leaves put_leaf set_leaves app]. rewrite Hl3.
        eapply lrep_split; [done|done|]. by rewrite Els2.
    + rewrite bool_decide_false by done. cbn [negb].
      assert (length a <= length kvs) as Hla by (rewrite Ek, app_length; lia).
      rewrite slice_insert_mk by (rewrite ?keysof_length; unfold LEAF_N; lia). rewrite obind_Ok.
      rewrite slice_insert_mk by (rewrite ?valsof_length; unfold LEAF_N; lia).
      rewrite !obind_Ok. cbn [put_leaf].
      eexists _, _, _, _. split_and!; [done|done|done| |].
      * split_and!; [done|done|]. lia.
      * cbn [leaves put_leaf set_leaves cache_leaf app].
        replace (mkLeaf _ _ _ _ _) with (mk_leaf (a ++ (k, v) :: b) (last_id None pre) (hd_id post None)).
        -- by eapply lrep_update.
        -- rewrite <- keysof_linsert with (v := v), <- valsof_linsert with (k := k), Eli.
           unfold mk_leaf. by rewrite Hlen', Nat.add_1_r.
Qed.

Lemma insert_leaf_ok (s : store K V A) pre id kvs post k v :
  lrep (leaves s) (pre ++ (id, kvs) :: post) -> length kvs <= 64 -> (ORD -> sortedm (map emark kvs)) ->
  exists r s' M L kvs',
    insert_leaf s id k v = Ok (r, s') /\ inners s' = inners s /\
    put_any k v kvs (up_val r) kvs' /\
    (ORD -> up_val r = spec_get (probe_key k) kvs /\ kvs' = spec_insert k v kvs) /\
    leaf_res id kvs' r M L (length (leaves s)) /\
    lrep (leaves s') (pre ++ L ++ post).
Proof.
  intros Hl Hlen Hs. pose proof (lrep_lookup _ _ _ _ _ Hl) as E.
  destruct (leaf_locate_any (probe_key k) kvs (last_id None pre) (hd_id post None)
    (fun HO => probe_key_ok (OL:=ord_if HO) k) Hlen Hs) as (r & Er & Hr).
  assert (insert_leaf s id k v = insert_leaf_at s id (mk_leaf kvs (last_id None pre) (hd_id post None)) k v r) as ->.
  { unfold insert_leaf, get_leaf at 1. rewrite E, obind_Ok. unfold leaf_try_upsert. rewrite Er, obind_Ok. done. }
  assert (exists kvs' o, match r with
    | ROk i => exists a k' v' b, kvs = a ++ (k', v') :: b /\ i = length a /\ kvs' = a ++ (k', v) :: b /\ o = Some v'
    | RErr i => exists a b, kvs = a ++ b /\ i = length a /\ kvs' = a ++ (k, v) :: b /\ o = None
    end /\ put_any k v kvs o kvs' /\ (ORD -> o = spec_get (probe_key k) kvs /\ kvs' = spec_insert k v kvs)) as (kvs' & o & Hr' & Hput & Hspec).
  { destruct r as [i|i].
    - destruct Hr as (a & k' & v' & b & Ek & -> & Hk & Fab). exists (a ++ (k', v) :: b), (Some v').
      split; [by exists a, k', v', b|]. split; [by exists a, k', b|]. intros HO. destruct (Fab HO) as [Fa Fb]. split.
      + rewrite Ek. rewrite (spec_get_mid _ a [(k', v')] b) by (eapply Forall_impl; [done|]; simpl; congruence).
        simpl. by rewrite Hk.
      + rewrite Ek, spec_insert_mid by done. simpl. unfold probe_key in Hk. by rewrite Hk.
    - destruct Hr as (a & b & Ek & -> & Fab). exists (a ++ (k, v) :: b), None.
      split; [by exists a, b|]. split; [by exists a, b|]. intros HO. destruct (Fab HO) as [Fa Fb]. split.
      + rewrite Ek. symmetry. apply (spec_get_mid _ a [] b); (eapply Forall_impl; [done|]; simpl; congruence).
      + rewrite Ek, spec_insert_mid by done. rewrite <- (app_nil_l b) at 2. by rewrite spec_insert_right. }
  destruct (insert_leaf_at_ok s pre id kvs post k v r Hl Hlen kvs' o Hr') as (r' & s' & M & L & E1 & E2 & <- & E4 & E5).
  exists r', s', M, L, kvs'. done.
Qed.

(** ** Node-level facts for rewriting one node of a tree *)
Definition ids (ch : list tr) : list nat := concat (map inner_ids ch).

Lemma ids_app ch1 ch2 : ids (ch1 ++ ch2) = ids ch1 ++ ids ch2.
Proof. unfold ids. by rewrite map_app, concat_app. Qed.
Lemma ids_cons c ch : ids (c :: ch) = inner_ids c ++ ids ch.
Proof. done. Qed.
Lemma elem_of_ids i ch : i ∈ ids ch <-> exists c, c ∈ ch /\ i ∈ inner_ids c.
Proof.
  unfold ids. rewrite elem_of_list_In, in_concat. split.
  - intros (x & H1 & H2). apply in_map_iff in H1 as (c & <- & H1). exists c.
    by rewrite !elem_of_list_In.
  - intros (c & H1 & H2). exists (inner_ids c). split; [apply in_map|]; by apply elem_of_list_In.
Qed.
Lemma inner_ids_node id ks ch : inner_ids (TNode id ks ch) = id :: ids ch.
Proof. done. Qed.

Lemma irep_node is h id ks (ch : list tr) (aus : list A) :
  Forall (irep is h) ch -> id ∉ ids ch -> id < length is -> length aus = length ch ->
  (SYNC -> aus = map aug_of ch) ->
  irep (<[id := Some (mk_inner ks (map nid ch) aus)]> is) (S h) (TNode id ks ch).
Proof.
  intros Hf Hid Hlt Hl Ha. split.
  - exists aus. split_and!; auto. by rewrite list_lookup_insert.
  - rewrite Forall_forall in Hf |- *. intros c Hc. eapply irep_frame; [by apply Hf|].
    intros i Hi. apply list_lookup_insert_ne. intros ->. apply Hid, elem_of_ids. eauto.
Qed.

Lemma Forall_irep_frame is is' h (ch : list tr) : Forall (irep is h) ch ->
  (forall i, i ∈ ids ch -> i < length is -> is' !! i = is !! i) -> Forall (irep is' h) ch.
Proof.
  rewrite !Forall_forall. intros Hf He c Hc. eapply irep_frame; [by apply Hf|].
  intros i Hi. apply He; [apply elem_of_ids; eauto|]. eapply irep_lt; [by apply Hf|done].
Qed.

Lemma ids_lt is h (ch : list tr) i : Forall (irep is h) ch -> i ∈ ids ch -> i < length is.
Proof.
  intros Hf (c & Hc & Hi)%elem_of_ids. rewrite Forall_forall in Hf. eapply irep_lt; [by apply Hf|done].
Qed.

Lemma map_aug_insert (cl cr : list tr) c c' (aus : list A) :
  (SYNC -> aus = map aug_of (cl ++ c :: cr)) ->
  forall a, (SYNC -> a = aug_of c') ->
  SYNC -> <[length cl := a]> aus = map aug_of (cl ++ c' :: cr).
Proof.
  intros H1 a H2 HS. rewrite (H1 HS), (H2 HS). rewrite !map_app. simpl.
  by rewrite insert_middle' by (by rewrite map_length).
Qed.

(** A sequence of fresh ids. *)
Definition fresh (n n' : nat) : list nat := seq n (n' - n).
Lemma fresh_app a b c : a <= b -> b <= c -> fresh a b ++ fresh b c = fresh a c.
Proof.
  intros H1 H2. unfold fresh. replace (c - a) with ((b - a) + (c - b)) by lia.
  rewrite seq_app. by replace (a + (b - a)) with b by lia.
Qed.
Lemma fresh_nil a : fresh a a = [].
Proof. unfold fresh. by rewrite Nat.sub_diag. Qed.
Lemma elem_of_fresh i a b : i ∈ fresh a b <-> a <= i < b.
Proof. unfold fresh. rewrite elem_of_list_In, in_seq. lia. Qed.
Lemma NoDup_fresh (l : list nat) a b : NoDup l -> (forall i, i ∈ l -> i < a) -> NoDup (l ++ fresh a b).
Proof.
  intros H1 H2. apply NoDup_app. split_and!; [done| |apply NoDup_ListNoDup, seq_NoDup].
  intros i Hi Hf. apply elem_of_fresh in Hf. specialize (H2 i Hi). lia.
Qed.

(** ** The ascent *)
Definition insert_post (m : nat) (b : bool) (h : nat) (t : tr) (marks : list mark) (segs : list seg)
    (s s' : store K V A) (r : insert_result K V) : Prop :=
  length (inners s) <= length (inners s') /\
  (forall i, i < length (inners s) -> i ∉ inner_ids t -> inners s' !! i = inners s !! i) /\
  match r with
  | IrSplit key c => exists t1 t2, nid t1 = nid t /\ c = nid t2 /\
      irep (inners s') h t1 /\ irep (inners s') h t2 /\
      shape false h t1 /\ shape b h t2 /\
      trav t1 ++ (key, None) :: trav t2 = marks /\ leaf_seq t1 ++ leaf_seq t2 = segs /\
      inner_ids t1 ++ inner_ids t2 ≡ₚ inner_ids t ++ fresh (length (inners s)) (length (inners s'))
  | _ => exists t', nid t' = nid t /\ irep (inners s') h t' /\ nshape m b h t' /\
      trav t' = marks /\ leaf_seq t' = segs /\
      inner_ids t' ≡ₚ inner_ids t ++ fresh (length (inners s)) (length (inners s'))
  end.

Definition same_kind (r r' : insert_result K V) : Prop :=
  match r with
  | IrUpdated v => r' = IrUpdated v
  | IrInserted => r' = IrInserted
  | IrSplit _ _ => r' = IrInserted \/ exists k c, r' = IrSplit k c
  end.

Context (Hrl : rl <= 16) (Hri : ri <= 16).

Lemma leaf_insert_post m b id kvs kvs' r M L rid (s : store K V A) :
  nshape m b 0 (TLeaf id kvs) -> length kvs <= length kvs' ->
  leaf_res id kvs' r M L rid -> insert_post m b 0 (TLeaf id kvs) M L s s r.
Proof.
  intros Hn Hl Hr. split; [done|]. split; [done|]. simpl in Hn.
  destruct r as [v| |key c]; simpl in Hr.
  - destruct Hr as (-> & -> & ?). exists (TLeaf id kvs'). rewrite fresh_nil. simpl. split_and!; auto; lia.
  - destruct Hr as (-> & -> & ?). exists (TLeaf id kvs'). rewrite fresh_nil. simpl. split_and!; auto; lia.
  - destruct Hr as (l & k0 & v0 & r' & -> & -> & -> & H1 & H2 & -> & ->).
    exists (TLeaf id l), (TLeaf rid ((k0, v0) :: r')). rewrite fresh_nil.
    split_and!; try done.
    + simpl in *. destruct b; lia.
Qed.

Lemma insert_step_nosplit m b h nid' kl kr cl c cr marks segs (s s1 : store K V A) r :
  length kl = length cl -> length kr = length cr ->
  irep (inners s) (S h) (TNode nid' (kl ++ kr) (cl ++ c :: cr)) ->
  nshape m b (S h) (TNode nid' (kl ++ kr) (cl ++ c :: cr)) ->
  NoDup (inner_ids (TNode nid' (kl ++ kr) (cl ++ c :: cr))) ->
  leaves s1 = leaves s ->
  (forall k c, r <> IrSplit k c) ->
  Forall (lvok (leaves s)) segs ->
  insert_post (smin rl ri (cflag b cr) h) (cflag b cr) h c marks segs s s1 r ->
  exists s2, (forall st0, insert_ascend ((nid', length cl, nid c) :: st0) s1 r = insert_ascend st0 s2 r) /\
    leaves s2 = leaves s /\
    insert_post m b (S h) (TNode nid' (kl ++ kr) (cl ++ c :: cr))
      (zl cl kl ++ marks ++ zr kr cr)
      (concat (map leaf_seq cl) ++ segs ++ concat (map leaf_seq cr)) s s2 r.
Proof.
  intros L1 L2 Hr Hn Hnd Hls Hns Hlv (Hle & Hfr & Hpost).
  assert (exists c', nid c' = nid c /\ irep (inners s1) h c' /\ nshape (smin rl ri (cflag b cr) h) (cflag b cr) h c' /\
      trav c' = marks /\ leaf_seq c' = segs /\
      inner_ids c' ≡ₚ inner_ids c ++ fresh (length (inners s)) (length (inners s1))) as
    (c' & Ec & Hr' & Hn' & <- & <- & Hids).
  { destruct r; try done. by destruct (Hns k c0). }
  clear Hpost. destruct Hr as [Hrep Hch]. destruct Hn as (Hk & Hc & Hs).
  destruct (node_rep_fits _ _ _ _ _ Hrep (proj2 Hk) Hc) as (aus & E & Hfit & Ha).
  rewrite inner_ids_node, ids_app, ids_cons in Hnd.
  apply NoDup_cons in Hnd as [Hnin Hnd].
  apply NoDup_app in Hnd as (Nl & Ndl & Nd2). apply NoDup_app in Nd2 as (Nc & Ndc & Nr).
  rewrite !elem_of_app in Hnin. apply Decidable.not_or in Hnin as [Hnl Hnin].
  apply Decidable.not_or in Hnin as [Hnc Hnr].
  assert (nid' < length (inners s)) as Hlt by (by eapply lookup_lt_Some).
  assert (inners s1 !! nid' = inners s !! nid') as Enid by (by apply Hfr).
  apply Forall_app in Hch as [Hcl Hch]. apply Forall_cons in Hch as [Hcc Hcr].
  assert (Forall (irep (inners s1) h) cl) as Hcl1.
  { eapply Forall_irep_frame; [done|]. intros i Hi Hlti. apply Hfr; [done|].
    intros Hx. apply (Ndl i); [done|]. apply elem_of_app. by left. }
  assert (Forall (irep (inners s1) h) cr) as Hcr1.
  { eapply Forall_irep_frame; [done|]. intros i Hi Hlti. apply Hfr; [done|].
    intros Hx. by apply (Ndc i). }
  destruct (new_aug_ok s1 h c' _ _ Hr' Hn') as (a & Ea & Haa); [by rewrite Hls|].
  set (n2 := mk_inner (kl ++ kr) (map nid (cl ++ c' :: cr)) (<[length cl := a]> aus)).
  exists (put_inner s1 nid' n2). split_and!.
  - intros st0. cbn [insert_ascend].
    assert (get_inner s1 nid' = Ok (mk_inner (kl ++ kr) (map nid (cl ++ c :: cr)) aus)) as Hg.
    { unfold get_inner. by rewrite Enid, E. }
    assert (inner_set_augmentation (mk_inner (kl ++ kr) (map nid (cl ++ c :: cr)) aus) (length cl) a = Ok n2) as Hset.
    { rewrite inner_set_augmentation_mk.
      - unfold n2. rewrite !map_app. simpl. by rewrite Ec.
      - destruct Hfit as (_ & _ & ->). rewrite app_length. lia. }
    rewrite <- Ec, Ea, obind_Ok, Hg, obind_Ok, Hset, obind_Ok.
    destruct r; try done. by destruct (Hns k c0).
  - done.
  - split_and!.
    + cbn [put_inner inners set_inners]. by rewrite insert_length.
    + intros i Hi Hni. rewrite inner_ids_node, ids_app, ids_cons, elem_of_cons, !elem_of_app in Hni.
      cbn [put_inner inners set_inners]. rewrite list_lookup_insert_ne by (intros ->; tauto). apply Hfr; tauto.
    + assert (exists t', nid t' = NInner nid' /\ irep (inners (put_inner s1 nid' n2)) (S h) t' /\ nshape m b (S h) t' /\
        trav t' = zl cl kl ++ trav c' ++ zr kr cr /\
        leaf_seq t' = concat (map leaf_seq cl) ++ leaf_seq c' ++ concat (map leaf_seq cr) /\
        inner_ids t' ≡ₚ inner_ids (TNode nid' (kl ++ kr) (cl ++ c :: cr)) ++
          fresh (length (inners s)) (length (inners (put_inner s1 nid' n2)))) as Hex.
      { exists (TNode nid' (kl ++ kr) (cl ++ c' :: cr)). split_and!; [done| | | | |].
        - cbn [put_inner inners set_inners]. apply irep_node.
          + apply Forall_app. split; [done|]. by constructor.
          + rewrite ids_app, ids_cons, Hids, !elem_of_app, elem_of_fresh.
            intros [?|[[?|?]|?]]; try done. lia.
          + lia.
          + rewrite insert_length. destruct Hfit as (_ & _ & ->). rewrite !app_length in Hc |- *. simpl in *. lia.
          + by eapply map_aug_insert.
        - split_and!; [lia|lia| |].
          + rewrite app_length in *. simpl in *. lia.
          + apply chs_app in Hs as (? & ? & ?). apply chs_app. split_and!; auto.
            by apply shape_nshape.
        - by rewrite trav_node.
        - simpl. rewrite map_app, concat_app. done.
        - rewrite !inner_ids_node, !ids_app, !ids_cons. cbn [put_inner inners set_inners]. rewrite insert_length, Hids.
          simpl. apply Permutation_skip. rewrite <- !app_assoc. apply Permutation_app_head, Permutation_app_head.
          apply Permutation_app_comm. }
      destruct r; try done. by destruct (Hns k c0).
Qed.

Lemma nodup_node nid' ks (cl cr : list tr) c : NoDup (inner_ids (TNode nid' ks (cl ++ c :: cr))) ->
  nid' ∉ ids cl /\ nid' ∉ inner_ids c /\ nid' ∉ ids cr /\
  NoDup (inner_ids c) /\
  (forall i, i ∈ ids cl -> i ∉ inner_ids c) /\ (forall i, i ∈ ids cr -> i ∉ inner_ids c).
Proof.
  rewrite inner_ids_node, ids_app, ids_cons. intros Hnd.
  apply NoDup_cons in Hnd as [Hnin Hnd].
  apply NoDup_app in Hnd as (Nl & Ndl & Nd2). apply NoDup_app in Nd2 as (Nc & Ndc & Nr).
  rewrite !elem_of_app in Hnin. split_and!; try tauto.
  - intros i Hi Hx. apply (Ndl i); [done|]. apply elem_of_app. by left.
  - intros i Hi Hx. by apply (Ndc i).
Qed.

Lemma insert_step_split m b h nid' kl kr cl c cr marks segs (s s1 : store K V A) key rc :
  m <= S (length (kl ++ kr)) ->
  length kl = length cl -> length kr = length cr ->
  irep (inners s) (S h) (TNode nid' (kl ++ kr) (cl ++ c :: cr)) ->
  nshape m b (S h) (TNode nid' (kl ++ kr) (cl ++ c :: cr)) ->
  NoDup (inner_ids (TNode nid' (kl ++ kr) (cl ++ c :: cr))) ->
  leaves s1 = leaves s ->
  Forall (lvok (leaves s)) segs ->
  insert_post (smin rl ri (cflag b cr) h) (cflag b cr) h c marks segs s s1 (IrSplit key rc) ->
  exists s2 r, (forall st0, insert_ascend ((nid', length cl, nid c) :: st0) s1 (IrSplit key rc) = insert_ascend st0 s2 r) /\
    leaves s2 = leaves s /\ same_kind (IrSplit key rc) r /\
    insert_post m b (S h) (TNode nid' (kl ++ kr) (cl ++ c :: cr))
      (zl cl kl ++ marks ++ zr kr cr)
      (concat (map leaf_seq cl) ++ segs ++ concat (map leaf_seq cr)) s s2 r.
Proof.
  intros _ L1 L2 Hr Hn Hnd Hls Hlv (Hle & Hfr & t1 & t2 & Et1 & -> & Hr1 & Hr2 & Hs1 & Hs2 & <- & <- & Hids).
  destruct Hr as [Hrep Hch]. destruct Hn as (Hk & Hc & Hs).
  destruct (node_rep_fits _ _ _ _ _ Hrep (proj2 Hk) Hc) as (aus & E & Hfit & Ha).
  apply nodup_node in Hnd as (Hnl & Hnc & Hnr & Nc & Ndl & Ndr).
  assert (nid' < length (inners s)) as Hlt by (by eapply lookup_lt_Some).
  assert (inners s1 !! nid' = inners s !! nid') as Enid by (by apply Hfr).
  apply Forall_app in Hch as [Hcl Hch]. apply Forall_cons in Hch as [Hcc Hcr].
  assert (Forall (irep (inners s1) h) cl) as Hcl1.
  { eapply Forall_irep_frame; [done|]. intros i Hi Hlti. apply Hfr; auto. }
  assert (Forall (irep (inners s1) h) cr) as Hcr1.
  { eapply Forall_irep_frame; [done|]. intros i Hi Hlti. apply Hfr; auto. }
  apply Forall_app in Hlv as [Hlv1 Hlv2].
  destruct (new_aug_ok s1 h t1 _ _ Hr1 (proj1 (shape_nshape _ _ _ _ _) Hs1)) as (a1 & Ea1 & Haa1); [by rewrite Hls|].
  destruct (new_aug_ok s1 h t2 _ _ Hr2 (proj1 (shape_nshape _ _ _ _ _) Hs2)) as (a2 & Ea2 & Haa2); [by rewrite Hls|].
  set (ks2 := kl ++ key :: kr). set (ch2 := cl ++ t1 :: t2 :: cr).
  set (aus2 := linsert (S (length cl)) a2 (<[length cl := a1]> aus)).
  assert (length aus = S (length (kl ++ kr))) as Hla by apply Hfit.
  assert (length cl < length aus) as Hcla by (rewrite Hla, app_length; lia).
  assert (length ks2 = S (length (kl ++ kr))) as Hlk2 by (unfold ks2; rewrite !app_length; simpl; lia).
  assert (length ch2 = S (length ks2)) as Hlc2.
  { unfold ch2. rewrite app_length in *. simpl in *. lia. }
  assert (length aus2 = length ch2) as Hlau.
  { unfold aus2. rewrite linsert_length, insert_length. lia. }
  assert (linsert (length cl) key (kl ++ kr) = ks2) as Eks by (by apply linsert_app').
  assert (linsert (S (length cl)) (nid t2) (map nid (cl ++ c :: cr)) = map nid ch2) as Ecs.
  { unfold ch2. rewrite !map_app. simpl. rewrite Et1.
    change (nid c :: map nid cr) with ([nid c] ++ map nid cr). rewrite app_assoc.
    rewrite linsert_app' by (rewrite app_length, map_length; simpl; lia). by rewrite <- app_assoc. }
  assert (SYNC -> aus2 = map aug_of ch2) as Hau.
  { intros HS. unfold aus2. rewrite (map_aug_insert cl cr c t1 aus Ha a1 Haa1 HS), (Haa2 HS).
    unfold ch2. rewrite !map_app. simpl.
    change (@aug_of K V A _ t1 :: map (@aug_of K V A _) cr) with ([@aug_of K V A _ t1] ++ map (@aug_of K V A _) cr). rewrite app_assoc.
    rewrite linsert_app' by (rewrite app_length, map_length; simpl; lia). by rewrite <- app_assoc. }
  assert (Forall (irep (inners s1) h) ch2) as Hch2.
  { apply Forall_app. split; [done|]. by repeat constructor. }
  assert (ids ch2 ≡ₚ ids (cl ++ c :: cr) ++ fresh (length (inners s)) (length (inners s1))) as Hids2.
  { unfold ch2. rewrite !ids_app, !ids_cons, (app_assoc (inner_ids t1)), Hids.
    rewrite <- !app_assoc. apply Permutation_app_head, Permutation_app_head, Permutation_app_comm. }
  assert (forall i, i ∈ ids ch2 -> i <> nid' /\ i < length (inners s1)) as Hid2.
  { intros i. rewrite Hids2, ids_app, ids_cons, !elem_of_app, elem_of_fresh.
    intros Hi. split.
    - intros ->. destruct Hi as [[?|[?|?]]|?]; try done. lia.
    - destruct Hi as [[?|[?|?]]|?]; [..|lia].
      + enough (i < length (inners s)) by lia. by eapply ids_lt; [exact Hcl|].
      + enough (i < length (inners s)) by lia. by eapply irep_lt; [exact Hcc|].
      + enough (i < length (inners s)) by lia. by eapply ids_lt; [exact Hcr|]. }
  assert (chs (fun b' => shape b' h) b ch2) as Hchs.
  { apply chs_app in Hs as (C1 & C2 & C3). unfold ch2. apply chs_app. split_and!; [done|done|].
    intros _. apply (chs_app _ _ [] t2 cr). split_and!; [constructor|done|done]. }
  assert (trav (TNode nid' ks2 ch2) = zl cl kl ++ (trav t1 ++ (key, None) :: trav t2) ++ zr kr cr) as Htrav.
  { unfold ks2, ch2. rewrite trav_node by (simpl; lia). rewrite zr_cons.
    rewrite <- !app_assoc. done. }
  assert (concat (map leaf_seq ch2) = concat (map leaf_seq cl) ++ (leaf_seq t1 ++ leaf_seq t2) ++ concat (map leaf_seq cr)) as Hseq.
  { unfold ch2. rewrite map_app, concat_app. simpl. by rewrite <- !app_assoc. }
  assert (get_inner s1 nid' = Ok (mk_inner (kl ++ kr) (map nid (cl ++ c :: cr)) aus)) as Hg.
  { unfold get_inner. by rewrite Enid, E. }
  set (n1 := mk_inner (kl ++ kr) (map nid (cl ++ c :: cr)) (<[length cl := a1]> aus)).
  assert (inner_fits (kl ++ kr) (map nid (cl ++ c :: cr)) (<[length cl := a1]> aus)) as Hfit1.
  { destruct Hfit as (? & ? & ?). split_and!; [done..|]. by rewrite insert_length. }
  assert (forall st0, insert_ascend ((nid', length cl, nid c) :: st0) s1 (IrSplit key (nid t2)) =
    if negb (inner_is_full n1) then
            let! n := inner_insert_at n1 (length cl) key (nid t2) a2 in
            insert_ascend st0 (put_inner s1 nid' n) IrInserted
          else
            let! '(prompt_k, new_node, n) := inner_split n1 (length cl) key (nid t2) a2 in
            let s := put_inner s1 nid' n in
            let '(new_id, s) := add_inner s new_node in
            insert_ascend st0 s (IrSplit prompt_k (NInner new_id))) as Hasc.
  { intros st0. cbn [insert_ascend]. rewrite Ea2, obind_Ok. rewrite <- Et1, Ea1, obind_Ok, Hg, obind_Ok.
    rewrite inner_set_augmentation_mk by done. done. }
  assert (i_size n1 = length (kl ++ kr)) as Hsz by done.
  destruct (decide (length (kl ++ kr) = 64)) as [Hfull|Hnfull].
  - destruct (inner_split_mk (kl ++ kr) (map nid (cl ++ c :: cr)) (<[length cl := a1]> aus)
      (length cl) key (nid t2) a2 Hfit1 Hfull) as (pk & Hpk & Esplit).
    { rewrite <- L1. rewrite app_length in Hfull. unfold INNER_N. lia. }
    rewrite Eks in Hpk, Esplit. rewrite Ecs in Esplit.
    change (linsert (S (length cl)) a2 (<[length cl:=a1]> aus)) with aus2 in Esplit.
    fold n1 in Esplit. rewrite firstn_map, skipn_map in Esplit.
    set (nl := mk_inner (take 32 ks2) (map nid (take 33 ch2)) (take 33 aus2)) in *.
    set (nr := mk_inner (drop 33 ks2) (map nid (drop 33 ch2)) (drop 33 aus2)) in *.
    assert (length ks2 = 65 /\ length ch2 = 66) as [Hk65 Hc66] by lia.
    set (new_id := length (inners s1)).
    exists (mkStore (<[nid' := Some nl]> (inners s1) ++ [Some nr]) (leaves s1) (cached s1)), (IrSplit pk (NInner new_id)).
    split_and!; [|done|right; eauto|].
    + intros st0. rewrite Hasc. unfold inner_is_full. rewrite Hsz, bool_decide_true by done. cbn [negb].
      rewrite Esplit, obind_Ok. unfold add_inner, put_inner, set_inners. cbn [inners leaves cached].
      by rewrite insert_length.
    + unfold insert_post. cbn [inners]. rewrite app_length, insert_length. cbn [length]. split_and!; [lia| |].
      * intros i Hi Hni. cbn [inners]. rewrite inner_ids_node, ids_app, ids_cons, elem_of_cons, !elem_of_app in Hni.
        rewrite lookup_app_l by (rewrite insert_length; lia).
        rewrite list_lookup_insert_ne by (intros ->; tauto). apply Hfr; tauto.
      * assert (Forall (fun c => irep (<[nid' := Some nl]> (inners s1) ++ [Some nr]) h c) ch2) as Hch3.
        { eapply Forall_irep_frame; [exact Hch2|]. intros i Hi Hlti. destruct (Hid2 i Hi).
          rewrite lookup_app_l by (by rewrite insert_length). by rewrite list_lookup_insert_ne. }
        rewrite <- (take_drop 33 ch2) in Hch3, Hchs.
        assert (drop 33 ch2 <> []) as Hdn.
        { intros E0. apply (f_equal length) in E0. rewrite drop_length, Hc66 in E0. simpl in E0. lia. }
        apply Forall_app in Hch3 as [Hcha Hchb]. apply chs_app2 in Hchs as [Hsa Hsb]; [|done].
        exists (TNode nid' (take 32 ks2) (take 33 ch2)), (TNode new_id (drop 33 ks2) (drop 33 ch2)).
        split_and!; [done|done| | | | | | |].
        -- split; [|done]. exists (take 33 aus2). split_and!.
           ++ rewrite lookup_app_l by (rewrite insert_length; lia). by rewrite list_lookup_insert by lia.
           ++ rewrite !take_length. lia.
           ++ intros HS. rewrite (Hau HS). by rewrite firstn_map.
        -- split; [|done]. exists (drop 33 aus2). split_and!.
           ++ rewrite lookup_app_r by (rewrite insert_length; lia). rewrite insert_length.
              unfold new_id. by rewrite Nat.sub_diag.
           ++ rewrite !drop_length. lia.
           ++ intros HS. rewrite (Hau HS). by rewrite skipn_map.
        -- cbn [shape Logical.shape]. rewrite !take_length. split_and!; [lia..|].
           apply chs_Forall; [|done]. intros E0. apply (f_equal length) in E0. rewrite take_length, Hc66 in E0. simpl in E0. lia.
        -- cbn [shape Logical.shape]. rewrite !drop_length. split_and!; [destruct b; lia|lia|lia|done].
        -- rewrite <- Htrav.
           assert (TNode nid' ks2 ch2 = TNode nid' (take 32 ks2 ++ pk :: drop 33 ks2) (take 33 ch2 ++ drop 33 ch2)) as ->
             by (f_equal; [by rewrite take_drop_middle|by rewrite take_drop]).
           symmetry. apply trav_node_app. rewrite !take_length. lia.
        -- rewrite <- Hseq. cbn [leaf_seq]. rewrite <- concat_app, <- map_app. by rewrite take_drop.
        -- rewrite !inner_ids_node. 
           rewrite <- (fresh_app (length (inners s)) (length (inners s1)) (length (inners s1) + 1)) by lia.
           replace (fresh (length (inners s1)) (length (inners s1) + 1)) with [new_id].
           2:{ unfold fresh. replace (length (inners s1) + 1 - length (inners s1)) with 1 by lia. done. }
           rewrite app_assoc. cbn [app]. apply Permutation_skip.
           rewrite <- Permutation_middle, <- Permutation_cons_append. apply Permutation_skip.
           rewrite <- ids_app, take_drop. done.
  - set (n2 := mk_inner ks2 (map nid ch2) aus2).
    exists (put_inner s1 nid' n2), IrInserted. split_and!; [|done|by left|].
    + intros st0. rewrite Hasc. unfold inner_is_full. rewrite Hsz, bool_decide_false by done. cbn [negb].
      unfold n1. rewrite inner_insert_at_mk; [|done|rewrite app_length; lia|unfold INNER_N; lia].
      rewrite obind_Ok, Eks, Ecs. done.
    + cbn [put_inner inners set_inners]. unfold insert_post. cbn [inners put_inner set_inners]. rewrite insert_length. split_and!; [lia| |].
      * intros i Hi Hni. rewrite inner_ids_node, ids_app, ids_cons, elem_of_cons, !elem_of_app in Hni.
        rewrite list_lookup_insert_ne by (intros ->; tauto). apply Hfr; tauto.
      * exists (TNode nid' ks2 ch2). split_and!; [done| | |done|done|].
        -- apply irep_node; [done| |lia|done|done]. intros Hi. by destruct (Hid2 _ Hi).
        -- cbn [nshape Logical.nshape]. split_and!; [lia..|done].
        -- rewrite !inner_ids_node. cbn [app]. by apply Permutation_skip.
Qed.

Lemma insert_ascend_ok t id kvs mA mB s1 s2 st : reach t id kvs mA mB s1 s2 st ->
  forall h m b (s : store K V A) r kvs' M L rid,
  irep (inners s) h t -> nshape m b h t -> NoDup (inner_ids t) ->
  length kvs <= length kvs' -> leaf_res id kvs' r M L rid ->
  Forall (lvok (leaves s)) (s1 ++ L ++ s2) ->
  exists s' r', (forall st0, insert_ascend (st ++ st0) s r = insert_ascend st0 s' r') /\
    leaves s' = leaves s /\ same_kind r r' /\
    insert_post m b h t (mA ++ M ++ mB) (s1 ++ L ++ s2) s s' r'.
Proof.
  induction 1 as [id kvs|nid' kl kr cl c cr id kvs mA mB s1 s2 st L1 L2 Hreach IH];
    intros h m b s r kvs' M L rid Hr Hn Hnd Hlen Hres Hlv.
  - destruct h; [|done]. exists s, r. split_and!; [done|done|by destruct r; simpl; eauto|].
    cbn [app]. rewrite !app_nil_r. by eapply leaf_insert_post.
  - destruct h as [|h]; [done|].
    pose proof (nodup_node _ _ _ _ _ Hnd) as (Hnl & Hnc & Hnr & Nc & Ndl & Ndr).
    pose proof Hr as [Hrep Hch]. pose proof Hn as (Hk & Hc & Hs).
    apply Forall_app in Hch as [Hcl Hch]. apply Forall_cons in Hch as [Hcc Hcr].
    apply chs_app in Hs as (C1 & C2 & C3).
    rewrite <- app_assoc, !Forall_app in Hlv. destruct Hlv as (V1 & V2 & V3 & V4 & V5).
    destruct (IH h (smin rl ri (cflag b cr) h) (cflag b cr) s r kvs' M L rid Hcc
      (proj1 (shape_nshape _ _ _ _ _) C2) Nc Hlen Hres) as (s' & r' & Hasc & Hls & Hkind & Hpost).
    { rewrite !Forall_app. done. }
    assert (forall st0, insert_ascend ((st ++ [(nid', length cl, nid c)]) ++ st0) s r =
      insert_ascend ((nid', length cl, nid c) :: st0) s' r') as Hasc'.
    { intros st0. rewrite <- app_assoc. apply Hasc. }
    assert (Forall (lvok (leaves s)) (s1 ++ L ++ s2)) as Hlv' by (by rewrite !Forall_app).
    replace ((zl cl kl ++ mA) ++ M ++ mB ++ zr kr cr) with (zl cl kl ++ (mA ++ M ++ mB) ++ zr kr cr)
      by (by rewrite <- !app_assoc).
    replace ((concat (map leaf_seq cl) ++ s1) ++ L ++ s2 ++ concat (map leaf_seq cr))
      with (concat (map leaf_seq cl) ++ (s1 ++ L ++ s2) ++ concat (map leaf_seq cr))
      by (by rewrite <- !app_assoc).
    assert (forall v, r' = v -> (forall k c, v <> IrSplit k c) -> same_kind r v ->
       exists s'0 r'0, (forall st0, insert_ascend ((st ++ [(nid', length cl, nid c)]) ++ st0) s r = insert_ascend st0 s'0 r'0) /\
        leaves s'0 = leaves s /\ same_kind r r'0 /\
        insert_post m b (S h) (TNode nid' (kl ++ kr) (cl ++ c :: cr)) (zl cl kl ++ (mA ++ M ++ mB) ++ zr kr cr)
          (concat (map leaf_seq cl) ++ (s1 ++ L ++ s2) ++ concat (map leaf_seq cr)) s s'0 r'0) as Hns.
    { intros v -> Hv Hkv.
      destruct (insert_step_nosplit m b h nid' kl kr cl c cr _ _ s s' v L1 L2 Hr Hn Hnd Hls Hv Hlv' Hpost)
        as (s2' & E2 & Hl2 & Hp2).
      exists s2', v. split_and!; try done. intros st0. by rewrite Hasc', E2. }
    destruct r' as [v| |key rc].
    + by apply (Hns (IrUpdated v)).
    + by apply (Hns IrInserted).
    + destruct (insert_step_split m b h nid' kl kr cl c cr _ _ s s' key rc ltac:(lia) L1 L2 Hr Hn Hnd Hls Hlv' Hpost)
        as (s2' & r2 & E2 & Hl2 & Hk2 & Hp2).
      exists s2', r2. split_and!; try done.
      * intros st0. by rewrite Hasc', E2.
      * destruct r; done.
Qed.

End Insert.
