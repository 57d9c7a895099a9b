(** The consuming iterator, [Drop], [clear] and [Clone]. *)
From stdpp Require Import list sorting.
From Verif Require Import Base Slots BinSearch LeafNode InnerNode Store Tree Remove Iterators Observe
  SlotLemmas NodeLemmas Spec Order Logical Descent InsertProof InvLemmas InsertTop
  RemoveLeaf RemoveInner RemoveProof RemoveTop Lookup IterProof.

Lemma split_cases {X} (a b a' b' : list X) x y : a ++ x :: b = a' ++ y :: b' ->
  (a = a' /\ x = y /\ b = b') \/ (exists m, a' = a ++ x :: m) \/ (exists m, a = a' ++ y :: m).
Proof.
  revert a'. induction a as [|z a IH]; intros [|z' a'] E; simpl in E; injection E as E1 E2; subst.
  - by left.
  - right; left. by exists a'.
  - right; right. by exists a.
  - destruct (IH _ E2) as [(-> & -> & ->)|[[m ->]|[m ->]]]; [by left|right; left; by exists m|right; right; by exists m].
Qed.

(** The elements of [l] at positions [lo .. hi-1]. *)
Definition sub {X} (l : list X) (lo hi : nat) : list X := take (hi - lo) (drop lo l).

Lemma sub_length {X} (l : list X) lo hi : hi <= length l -> length (sub l lo hi) = hi - lo.
Proof. intros H. unfold sub. rewrite take_length, drop_length. lia. Qed.
Lemma sub_cons {X} (l : list X) lo hi x : l !! lo = Some x -> lo < hi -> sub l lo hi = x :: sub l (S lo) hi.
Proof.
  intros H1 H2. unfold sub. rewrite (drop_S _ x) by done. replace (hi - lo) with (S (hi - S lo)) by lia. done.
Qed.
Lemma sub_snoc {X} (l : list X) lo hi x : l !! (hi - 1) = Some x -> lo < hi -> sub l lo hi = sub l lo (hi - 1) ++ [x].
Proof.
  intros H1 H2. unfold sub. replace (hi - lo) with (S (hi - 1 - lo)) by lia.
  apply take_S_r. rewrite lookup_drop. rewrite <- H1. f_equal. lia.
Qed.
Lemma sub_nil {X} (l : list X) lo : sub l lo lo = [].
Proof. unfold sub. by rewrite Nat.sub_diag. Qed.
Lemma sub_all {X} (l : list X) : sub l 0 (length l) = l.
Proof. unfold sub. by rewrite Nat.sub_0_r, drop_0, take_ge. Qed.

Section IntoProof.
Context {K V A : Type} {KO : KeyOps K} {PF : Profile} {OM : OrdMode} {OI : OrdIf K} {AO : AugOps K V A}.
Notation tr := (tr K V).
Notation tree := (tree K V A).
Notation seg := (nat * list (K * V))%type.
Notation into_iter := (into_iter K V A).

Definition before (s1 : list seg) : nat := length (concat (map snd s1)).

Lemma before_snoc s1 (s : seg) : before (s1 ++ [s]) = before s1 + length s.2.
Proof. unfold before. rewrite map_app, concat_app, app_length. simpl. by rewrite app_nil_r. Qed.
Lemma before_app s1 (s : seg) m : before (s1 ++ s :: m) = before s1 + length s.2 + before m.
Proof. unfold before. rewrite map_app, concat_app, app_length. simpl. rewrite app_length. lia. Qed.

(** Slots hold the entries of global position [lo .. hi-1] and nothing else. *)
Definition window {X} (l : list X) (base lo hi : nat) (s : slots X) : Prop :=
  forall i, s !! i = if decide (i < 64) then Some (if decide (lo <= base + i < hi) then l !! i else None) else None.

Definition wleaf (l : leaf K V) kvs pv nx base lo hi : Prop :=
  l_size l = length kvs /\ l_prev l = pv /\ l_next l = nx /\
  window (keysof kvs) base lo hi (l_keys l) /\ window (valsof kvs) base lo hi (l_vals l).

Definition wleaves (segs : list seg) (ls : list (option (leaf K V))) lo hi : Prop :=
  forall s1 id kvs s2, segs = s1 ++ (id, kvs) :: s2 ->
    exists l, ls !! id = Some (Some l) /\ wleaf l kvs (last_id None s1) (hd_id s2 None) (before s1) lo hi.

Record instate (segs : list seg) (it : into_iter) lo hi : Prop := {
  in_leaves : wleaves segs (leaves (ii_store it)) lo hi;
  in_live : forall i l, leaves (ii_store it) !! i = Some (Some l) -> i ∈ map fst segs;
  in_len : ii_len it = hi - lo;
  in_range : lo <= hi <= before segs;
  in_pos : exists s1 id kvs s2, segs = s1 ++ (id, kvs) :: s2 /\
    before s1 <= lo <= before s1 + length kvs /\ ii_pos it = (id, lo - before s1);
  in_end : exists s1 id kvs s2, segs = s1 ++ (id, kvs) :: s2 /\
    before s1 <= hi <= before s1 + length kvs /\ ii_end it = (id, hi - before s1);
  in_nodup : NoDup (map fst segs);
  in_size : Forall (fun s => length s.2 <= 64) segs;
}.

Lemma window_mk {X} (l : list X) base lo hi : length l <= 64 -> lo <= base -> base + length l <= hi ->
  window l base lo hi (mk_slots 64 l).
Proof.
  intros H1 H2 H3 i. destruct (decide (i < 64)) as [D|D].
  - destruct (decide (i < length l)) as [D2|D2].
    + destruct (lookup_lt_is_Some_2 l i D2) as [x Hx]. rewrite (mk_slots_lookup _ _ _ _ Hx), decide_True by lia. by rewrite Hx.
    + rewrite mk_slots_lookup_None by lia. rewrite (lookup_ge_None_2 l i) by lia. by destruct (decide _).
  - apply lookup_ge_None_2. rewrite mk_slots_length by lia. lia.
Qed.

Lemma window_take {X} (l : list X) base lo hi s i x lo' hi' : window l base lo hi s -> l !! i = Some x ->
  length l <= 64 -> lo <= base + i < hi -> (lo' = S lo /\ base + i = lo /\ hi' = hi \/ lo' = lo /\ S hi' = hi /\ base + i = hi') ->
  exists s', slot_take s i = Ok (x, s') /\ window l base lo' hi' s'.
Proof.
  intros Hw Hx Hl Hi Hc. pose proof (lookup_lt_Some _ _ _ Hx) as Hlt.
  assert (s !! i = Some (Some x)) as E.
  { rewrite Hw, decide_True by lia. rewrite decide_True by lia. by rewrite Hx. }
  unfold slot_take. rewrite E. eexists; split; [done|]. intros j.
  destruct (decide (i = j)) as [->|Hne].
  - rewrite list_lookup_insert by (by eapply lookup_lt_Some). rewrite decide_True by lia. rewrite decide_False by lia. done.
  - rewrite list_lookup_insert_ne by done. rewrite Hw. destruct (decide (j < 64)); [|done]. f_equal.
    destruct (decide (lo <= base + j < hi)), (decide (lo' <= base + j < hi')); try done; lia.
Qed.

Lemma window_skip {X} (l : list X) base lo hi s lo' hi' : window l base lo hi s ->
  (forall i, i < length l -> lo <= base + i < hi <-> lo' <= base + i < hi') -> window l base lo' hi' s.
Proof.
  intros Hw H i. rewrite Hw. destruct (decide (i < 64)); [|done]. f_equal.
  destruct (decide (i < length l)) as [D|D].
  - specialize (H i D). destruct (decide _), (decide _); try done; tauto.
  - rewrite lookup_ge_None_2 by lia. by destruct (decide _), (decide _).
Qed.

Lemma segs_lookup (segs : list seg) s1 id kvs s2 i : segs = s1 ++ (id, kvs) :: s2 -> i < length kvs ->
  concat (map snd segs) !! (before s1 + i) = kvs !! i.
Proof.
  intros -> Hi. rewrite map_app, concat_app. unfold before. rewrite lookup_app_r by lia.
  rewrite Nat.add_comm, Nat.add_sub. simpl. by rewrite lookup_app_l.
Qed.

Lemma fst_unique (segs : list seg) s1 id kvs s2 s1' kvs' s2' : NoDup (map fst segs) ->
  segs = s1 ++ (id, kvs) :: s2 -> segs = s1' ++ (id, kvs') :: s2' -> s1 = s1' /\ kvs = kvs' /\ s2 = s2'.
Proof.
  intros Hn -> E. destruct (split_cases _ _ _ _ _ _ E) as [(? & [= ->] & ?)|[[m ->]|[m ->]]]; [done|..]; exfalso.
  - rewrite E, !map_app in Hn. simpl in Hn. apply NoDup_app in Hn as (_ & Hn & _).
    apply (Hn id); [ss|ss].
  - rewrite !map_app in Hn. simpl in Hn. apply NoDup_app in Hn as (_ & Hn & _).
    apply (Hn id); [ss|ss].
Qed.

(** Taking one entry out of a leaf. *)
Lemma take_step segs (ls : list (option (leaf K V))) lo hi s1 id kvs s2 i kv lo' hi' :
  wleaves segs ls lo hi -> NoDup (map fst segs) -> Forall (fun s => length s.2 <= 64) segs ->
  segs = s1 ++ (id, kvs) :: s2 -> kvs !! i = Some kv -> lo <= before s1 + i < hi ->
  (lo' = S lo /\ before s1 + i = lo /\ hi' = hi \/ lo' = lo /\ S hi' = hi /\ before s1 + i = hi') ->
  exists l l', ls !! id = Some (Some l) /\ l_size l = length kvs /\ leaf_take_data l i = Ok (kv, l') /\
    wleaves segs (<[id := Some l']> ls) lo' hi'.
Proof.
  intros Hw Hn Hz Es Hi Hr Hc. destruct (Hw _ _ _ _ Es) as (l & El & Hl1 & Hl2 & Hl3 & Hk & Hv).
  pose proof (lookup_lt_Some _ _ _ Hi) as Hlt. destruct kv as [k v].
  assert (length kvs <= 64) as H64.
  { rewrite Es in Hz. apply Forall_app in Hz as [_ Hz]. by apply Forall_cons in Hz as [Hz _]. }
  destruct (window_take _ _ _ _ _ i k lo' hi' Hk) as (ks' & Ek & Hk'); [by eapply keysof_lookup|by rewrite keysof_length|done|done|].
  destruct (window_take _ _ _ _ _ i v lo' hi' Hv) as (vs' & Ev & Hv'); [by eapply valsof_lookup|by rewrite valsof_length|done|done|].
  exists l, (mkLeaf (l_size l) ks' vs' (l_prev l) (l_next l)). split_and!; try done.
  - unfold leaf_take_data. rewrite decide_True by lia. by rewrite Ek, obind_Ok, Ev, obind_Ok.
  - intros s1' id' kvs' s2' Es'. destruct (decide (id' = id)) as [->|Hne].
    + destruct (fst_unique _ _ _ _ _ _ _ _ Hn Es Es') as (<- & <- & <-).
      eexists. rewrite list_lookup_insert by (by eapply lookup_lt_Some). split; [done|]. split_and!; done.
    + rewrite list_lookup_insert_ne by done. destruct (Hw _ _ _ _ Es') as (l'' & El'' & X1 & X2 & X3 & X4 & X5).
      exists l''. split; [done|].
      assert (forall j, j < length kvs' -> lo <= before s1' + j < hi <-> lo' <= before s1' + j < hi') as Hj.
      { intros j Hj. assert (before s1' + j <> before s1 + i) as Hd.
        { rewrite Es in Es'. destruct (split_cases _ _ _ _ _ _ Es') as [(? & [=] & ?)|[[m ->]|[m ->]]]; [congruence|..];
            rewrite before_app; cbn [snd]; lia. }
        lia. }
      split_and!; try done; eapply window_skip; try done; rewrite ?keysof_length, ?valsof_length; done.
Qed.

Lemma segs_bound (segs : list seg) (ls : list (option (leaf K V))) lo hi s1 s2 : wleaves segs ls lo hi -> NoDup (map fst segs) ->
  segs = s1 ++ s2 -> length s1 <= length ls /\ length s2 <= length ls.
Proof.
  intros Hw Hn Es. assert (length (map fst segs) <= length ls) as Hb.
  { apply NoDup_bound; [done|]. intros i Hi. apply elem_of_list_In, in_map_iff in Hi as ([i' kvs] & <- & Hi).
    apply elem_of_list_In, elem_of_list_split in Hi as (x & y & E). destruct (Hw _ _ _ _ E) as (l & El & _).
    by eapply lookup_lt_Some. }
  rewrite map_length, Es, app_length in Hb. lia.
Qed.

(** ** One call *)
Lemma into_next_loop_ok segs it lo hi fuel : instate segs it lo hi ->
  (forall s1 id kvs s2, segs = s1 ++ (id, kvs) :: s2 -> (ii_pos it).1 = id -> length s2 < fuel) ->
  exists it', into_iter_next_loop fuel it = Ok (head (sub (concat (map snd segs)) lo hi), it') /\
    instate segs it' (if decide (lo < hi) then S lo else lo) hi /\
    inners (ii_store it') = inners (ii_store it) /\ length (leaves (ii_store it')) = length (leaves (ii_store it)).
Proof.
  revert it. induction fuel as [|fuel IH]; intros it [H1 Hlv H2 H3 (s1 & id & kvs & s2 & Es & Hb & Ep) H5 H6 H7] Hfu;
    pose proof (Hfu _ _ _ _ Es) as Hf; rewrite Ep in Hf; specialize (Hf eq_refl); [lia|].
  cbn [into_iter_next_loop]. destruct (decide (ii_len it = 0)) as [D|D].
  { assert (lo = hi) as -> by lia. rewrite sub_nil, decide_False by lia. exists it. split; [done|]. split; [|done].
    split; try done. by exists s1, id, kvs, s2. }
  rewrite Ep. destruct (H1 _ _ _ _ Es) as (l & El & Hl1 & Hl2 & Hl3 & _). unfold get_leaf. rewrite El, obind_Ok, Hl1.
  destruct (decide (lo - before s1 < length kvs)) as [Dl|Dl].
  - destruct (lookup_lt_is_Some_2 kvs (lo - before s1) Dl) as [kv Hkv].
    destruct (take_step segs _ lo hi s1 id kvs s2 (lo - before s1) kv (S lo) hi H1 H6 H7 Es Hkv) as (l0 & l' & El0 & _ & Et & Hw');
      [lia|left; lia|].
    rewrite El in El0. injection El0 as <-. rewrite Et, obind_Ok. rewrite decide_True by lia.
    rewrite (sub_cons _ _ _ kv); [|rewrite <- Hkv; rewrite <- (segs_lookup _ _ _ _ _ _ Es Dl); f_equal; lia|lia].
    eexists. split; [done|]. split; [|split; [done|by cbn; rewrite insert_length]]. split; cbn [ii_store ii_len ii_pos ii_end leaves put_leaf set_leaves]; try done.
    + intros i l0 Hi. destruct (decide (i = id)) as [->|Hne]; [|rewrite list_lookup_insert_ne in Hi by done; by eapply Hlv].
      rewrite Es, map_app. simpl. ss.
    + lia.
    + lia.
    + exists s1, id, kvs, s2. split_and!; try done; [lia|lia|]. f_equal. lia.
  - destruct s2 as [|[id2 kvs2] s2].
    { exfalso. rewrite Es, before_snoc in H3. simpl in H3. lia. }
    rewrite Hl3. simpl hd_id. cbn iota.
    assert (segs = (s1 ++ [(id, kvs)]) ++ (id2, kvs2) :: s2) as Es2 by (by rewrite Es, <- app_assoc).
    pose proof (before_snoc s1 (id, kvs)) as Hbs. cbn [snd] in Hbs.
    apply (IH (mkIntoIter (ii_store it) (ii_len it) (id2, 0) (ii_end it))).
    + split; try done. exists (s1 ++ [(id, kvs)]), id2, kvs2, s2. split_and!; try done; [lia|lia|]. simpl. f_equal. lia.
    + intros s1' id' kvs' s2' E' <-. simpl in E'. destruct (fst_unique _ _ _ _ _ _ _ _ H6 Es2 E') as (_ & _ & <-). simpl in Hf. lia.
Qed.

Lemma into_next_ok segs it lo hi : instate segs it lo hi ->
  exists it', into_iter_next it = Ok (head (sub (concat (map snd segs)) lo hi), it') /\
    instate segs it' (if decide (lo < hi) then S lo else lo) hi /\
    inners (ii_store it') = inners (ii_store it) /\ length (leaves (ii_store it')) = length (leaves (ii_store it)).
Proof.
  intros H. apply into_next_loop_ok; [done|]. intros s1 id kvs s2 Es _.
  destruct (segs_bound segs (leaves (ii_store it)) lo hi (s1 ++ [(id, kvs)]) s2) as [_ ?]; [apply H|apply H|by rewrite Es, <- app_assoc|lia].
Qed.

Lemma into_back_loop_ok segs it lo hi fuel : instate segs it lo hi ->
  (forall s1 id kvs s2, segs = s1 ++ (id, kvs) :: s2 -> (ii_end it).1 = id -> length s1 < fuel) ->
  exists it', into_iter_next_back_loop fuel it = Ok (list.last (sub (concat (map snd segs)) lo hi), it') /\
    instate segs it' lo (if decide (lo < hi) then hi - 1 else hi) /\
    inners (ii_store it') = inners (ii_store it) /\ length (leaves (ii_store it')) = length (leaves (ii_store it)).
Proof.
  revert it. induction fuel as [|fuel IH]; intros it [H1 Hlv H2 H3 H5 (s1 & id & kvs & s2 & Es & Hb & Ep) H6 H7] Hfu;
    pose proof (Hfu _ _ _ _ Es) as Hf; rewrite Ep in Hf; specialize (Hf eq_refl); [lia|].
  cbn [into_iter_next_back_loop]. destruct (decide (ii_len it = 0)) as [D|D].
  { assert (lo = hi) as -> by lia. rewrite sub_nil, decide_False by lia. exists it. split; [done|]. split; [|done].
    split; try done. by exists s1, id, kvs, s2. }
  rewrite Ep. destruct (H1 _ _ _ _ Es) as (l & El & Hl1 & Hl2 & Hl3 & _). unfold get_leaf at 1. rewrite El, obind_Ok.
  destruct (decide (0 < hi - before s1)) as [Dl|Dl].
  - destruct (lookup_lt_is_Some_2 kvs (hi - before s1 - 1)) as [kv Hkv]; [lia|].
    destruct (take_step segs _ lo hi s1 id kvs s2 (hi - before s1 - 1) kv lo (hi - 1) H1 H6 H7 Es Hkv) as (l0 & l' & El0 & _ & Et & Hw');
      [lia|right; lia|].
    rewrite El in El0. injection El0 as <-. rewrite Et, obind_Ok. rewrite decide_True by lia.
    rewrite (sub_snoc _ _ _ kv); [|rewrite <- Hkv; rewrite <- (segs_lookup _ _ _ _ _ (hi - before s1 - 1) Es) by lia; f_equal; lia|lia].
    rewrite last_snoc.
    eexists. split; [done|]. split; [|split; [done|by cbn; rewrite insert_length]]. split; cbn [ii_store ii_len ii_pos ii_end leaves put_leaf set_leaves]; try done.
    + intros i l0 Hi. destruct (decide (i = id)) as [->|Hne]; [|rewrite list_lookup_insert_ne in Hi by done; by eapply Hlv].
      rewrite Es, map_app. simpl. ss.
    + lia.
    + lia.
    + exists s1, id, kvs, s2. split_and!; try done; [lia|lia|]. f_equal. lia.
  - destruct s1 as [|[id1 kvs1] s1 _] using rev_ind.
    { exfalso. unfold before in *. simpl in *. lia. }
    rewrite Hl2, last_id_None. cbn [fst].
    assert (segs = s1 ++ (id1, kvs1) :: (id, kvs) :: s2) as Es2 by (by rewrite Es, <- app_assoc).
    destruct (H1 _ _ _ _ Es2) as (l2 & El2 & Hs2 & _). unfold get_leaf. rewrite El2, obind_Ok, Hs2.
    pose proof (before_snoc s1 (id1, kvs1)) as Hbs. cbn [snd] in Hbs.
    apply (IH (mkIntoIter (ii_store it) (ii_len it) (ii_pos it) (id1, length kvs1))).
    + split; try done. exists s1, id1, kvs1, ((id, kvs) :: s2). split_and!; try done; [lia|lia|]. simpl. f_equal. lia.
    + intros s1' id' kvs' s2' E' <-. simpl in E'. destruct (fst_unique _ _ _ _ _ _ _ _ H6 Es2 E') as (<- & _ & _).
      rewrite app_length in Hf. simpl in Hf. lia.
Qed.

Lemma into_back_ok segs it lo hi : instate segs it lo hi ->
  exists it', into_iter_next_back it = Ok (list.last (sub (concat (map snd segs)) lo hi), it') /\
    instate segs it' lo (if decide (lo < hi) then hi - 1 else hi) /\
    inners (ii_store it') = inners (ii_store it) /\ length (leaves (ii_store it')) = length (leaves (ii_store it)).
Proof.
  intros H. apply into_back_loop_ok; [done|]. intros s1 id kvs s2 Es _.
  destruct (segs_bound segs (leaves (ii_store it)) lo hi s1 ((id, kvs) :: s2)) as [? _]; [apply H|apply H|done|lia].
Qed.

(** ** Any sequence of calls *)
Lemma into_drive_ok segs it lo hi ends : instate segs it lo hi ->
  exists it' lo' hi', instate segs it' lo' hi' /\ inners (ii_store it') = inners (ii_store it) /\
    into_drive it ends = Ok ((deque_drive (sub (concat (map snd segs)) lo hi) ends).1, it') /\
    sub (concat (map snd segs)) lo' hi' = (deque_drive (sub (concat (map snd segs)) lo hi) ends).2.
Proof.
  revert it lo hi. induction ends as [|e ends IH]; intros it lo hi H; cbn [into_drive deque_drive].
  { by exists it, lo, hi. }
  set (L := concat (map snd segs)) in *.
  assert (length L = before segs) as HL by done.
  pose proof (in_range _ _ _ _ H) as Hr.
  assert (exists it1 lo1 hi1, (if e then into_iter_next it else into_iter_next_back it) =
      Ok (if e then head (sub L lo hi) else list.last (sub L lo hi), it1) /\ instate segs it1 lo1 hi1 /\
      inners (ii_store it1) = inners (ii_store it) /\
      sub L lo1 hi1 = if e then tail (sub L lo hi) else removelast (sub L lo hi)) as (it1 & lo1 & hi1 & E & H1 & Hi & Hs).
  { destruct e.
    - destruct (into_next_ok _ _ _ _ H) as (it1 & E & H1 & Hi & _). eexists it1, _, hi. split_and!; [exact E|exact H1|done|].
      destruct (decide (lo < hi)) as [D|D].
      + destruct (lookup_lt_is_Some_2 L lo) as [x Hx]; [lia|]. by rewrite (sub_cons L lo hi x).
      + assert (lo = hi) as -> by lia. by rewrite sub_nil.
    - destruct (into_back_ok _ _ _ _ H) as (it1 & E & H1 & Hi & _). eexists it1, lo, _. split_and!; [exact E|exact H1|done|].
      destruct (decide (lo < hi)) as [D|D].
      + destruct (lookup_lt_is_Some_2 L (hi - 1)) as [x Hx]; [lia|]. rewrite (sub_snoc L lo hi x) by done. by rewrite removelast_last.
      + assert (lo = hi) as -> by lia. by rewrite sub_nil. }
  rewrite E, obind_Ok. destruct (IH it1 lo1 hi1 H1) as (it' & lo' & hi' & H' & Hi' & E' & S').
  rewrite Hs in E', S'. exists it', lo', hi'. rewrite E', obind_Ok.
  assert (ii_len it1 = length (sub L lo1 hi1)) as ->.
  { rewrite (in_len _ _ _ _ H1), sub_length; [done|]. rewrite HL. apply H1. }
  rewrite Hs. destruct (deque_drive _ ends) as [rs l'']. cbn [fst snd] in *. split_and!; [done|congruence|done|done].
Qed.

Lemma into_drain_ok segs it lo hi fuel : instate segs it lo hi -> hi - lo < fuel ->
  exists it', into_iter_drain fuel it = Ok (sub (concat (map snd segs)) lo hi, it') /\
    instate segs it' hi hi /\ inners (ii_store it') = inners (ii_store it).
Proof.
  revert it lo. induction fuel as [|fuel IH]; intros it lo H Hf; [lia|]. cbn [into_iter_drain].
  set (L := concat (map snd segs)) in *. pose proof (in_range _ _ _ _ H) as Hr.
  assert (length L = before segs) as HL by done.
  destruct (into_next_ok _ _ _ _ H) as (it1 & -> & H1 & Hi & _). fold L. rewrite obind_Ok.
  destruct (decide (lo < hi)) as [D|D].
  - destruct (lookup_lt_is_Some_2 L lo) as [x Hx]; [lia|]. rewrite (sub_cons L lo hi x) by done. cbn [head].
    destruct (IH it1 (S lo) H1) as (it' & -> & H' & Hi'); [lia|]. rewrite obind_Ok. exists it'. split_and!; [done|done|congruence].
  - assert (lo = hi) as -> by lia. rewrite sub_nil. cbn [head]. by exists it1.
Qed.

Section Inv.
Context (rl ri : nat) (SYNC : Prop) (Hrl1 : 1 <= rl).
Notation InvAt := (InvAt (A:=A) rl ri SYNC).

Lemma into_new_ok T h t : InvAt T h t -> exists it, into_iter_new T = Ok it /\
  instate (leaf_seq t) it 0 (length (flat t)) /\ ii_store it = t_store T.
Proof.
  intros HI. destruct (first_leaf_ok rl ri SYNC Hrl1 T h t HI) as (f & kf & rf & Ef & E1).
  destruct (last_leaf_ok rl ri SYNC Hrl1 T h t HI) as (l & kl & rl' & El & E2).
  unfold into_iter_new. rewrite E1, obind_Ok, E2, obind_Ok. unfold get_leaf.
  rewrite (inv_leaf rl ri SYNC T h t rl' _ _ [] HI El), obind_Ok. eexists; split; [done|]. split; [|done].
  pose proof (inv_seg_size rl ri SYNC T h t HI) as Hz.
  split; cbn [ii_store ii_len ii_pos ii_end l_size mk_leaf].
  - intros s1 id kvs s2 Es. eexists. split; [by eapply (inv_leaf rl ri SYNC)|]. split_and!; try done.
    + rewrite Es in Hz. apply Forall_app in Hz as [_ Hz]. apply Forall_cons in Hz as [Hz _]. simpl in Hz.
      apply window_mk; rewrite ?keysof_length; [lia|lia|]. unfold flat. rewrite Es. fold (before (s1 ++ (id, kvs) :: s2)). rewrite before_app. simpl. lia.
    + rewrite Es in Hz. apply Forall_app in Hz as [_ Hz]. apply Forall_cons in Hz as [Hz _]. simpl in Hz.
      apply window_mk; rewrite ?valsof_length; [lia|lia|]. unfold flat. rewrite Es. fold (before (s1 ++ (id, kvs) :: s2)). rewrite before_app. simpl. lia.
  - intros i ll Hi. eapply lrep_live; [apply HI|done].
  - rewrite (inv_len _ _ _ _ _ _ HI). lia.
  - split; [lia|done].
  - exists [], f, kf, rf. split_and!; try done; unfold before; simpl; lia.
  - exists rl', l, kl, []. assert (length (flat t) = before rl' + length kl) as Hl.
    { unfold flat. rewrite El. exact (before_snoc rl' (l, kl)). }
    rewrite Hl. split_and!; try lia; [done|]. simpl. do 2 f_equal. lia.
  - apply HI.
  - done.
Qed.

(** ** Inner nodes can be dropped *)
Lemma shape_fits (is : list (option (inner K A))) b h (t : tr) i n : irep SYNC is h t -> shape rl ri b h t ->
  i ∈ inner_ids t -> is !! i = Some (Some n) -> droppable n.
Proof.
  revert b t. induction h as [|h IH]; intros b [id kvs|id ks ch]; simpl; try done.
  - intros _ _ Hi. by apply elem_of_nil in Hi.
  - intros [(aus & E & Hla & _) Hf] ([_ Hks] & Hl & Hc) Hi En. apply elem_of_cons in Hi as [->|Hi].
    + rewrite E in En. injection En as <-. eexists _, _, _. split; [|done].
      unfold inner_fits, INNER_N, INNER_C. rewrite map_length. lia.
    + apply elem_of_list_In, in_concat in Hi as (l & Hl' & Hi). apply in_map_iff in Hl' as (c & <- & Hc').
      apply elem_of_list_In in Hc', Hi. rewrite Forall_forall in Hf.
      destruct (chs_elem _ _ _ _ Hc Hc') as [X|X]; (eapply IH; [by apply Hf|exact X|done|done]).
Qed.

Lemma nshape_fits (is : list (option (inner K A))) m b h (t : tr) i n : irep SYNC is h t -> nshape rl ri m b h t ->
  i ∈ inner_ids t -> is !! i = Some (Some n) -> droppable n.
Proof.
  destruct h as [|h], t as [id kvs|id ks ch]; simpl; try done.
  - intros _ _ Hi. by apply elem_of_nil in Hi.
  - intros [(aus & E & Hla & _) Hf] ([_ Hks] & Hl & Hc) Hi En. apply elem_of_cons in Hi as [->|Hi].
    + rewrite E in En. injection En as <-. eexists _, _, _. split; [|done].
      unfold inner_fits, INNER_N, INNER_C. rewrite map_length. lia.
    + apply elem_of_list_In, in_concat in Hi as (l & Hl' & Hi). apply in_map_iff in Hl' as (c & <- & Hc').
      apply elem_of_list_In in Hc', Hi. rewrite Forall_forall in Hf.
      destruct (chs_elem _ _ _ _ Hc Hc') as [X|X]; (eapply shape_fits; [by apply Hf|exact X|done|done]).
Qed.

Lemma inv_droppable T h t i n : InvAt T h t -> inners (t_store T) !! i = Some (Some n) -> droppable n.
Proof.
  intros HI E. destruct (inv_garbage _ _ _ _ _ _ HI _ _ E) as [Hi|(c & a & ->)].
  2: { eexists [], [c], [a]. split; [|done]. split_and!; simpl; unfold INNER_N; lia. }
  eapply nshape_fits; [apply HI|apply HI|done|done].
Qed.

Lemma drop_inners_ok (l : list (option (inner K A))) : (forall i n, l !! i = Some (Some n) -> droppable n) ->
  drop_inners (V:=V) l = Ok tt.
Proof.
  induction l as [|o l IH]; intros H; [done|]. assert (drop_inners (V:=V) l = Ok tt) as E.
  { apply IH. intros i. apply (H (S i)). }
  destruct o as [n|]; cbn [drop_inners]; [|done].
  destruct (H 0 n eq_refl) as (ks & cs & aus & Hf & ->). rewrite inner_drop_mk by done. by rewrite obind_Ok.
Qed.

(** After the consuming iterator is drained no leaf slot holds anything. *)
Definition hollow {X} (s : slots X) : Prop := forall i x, s !! i <> Some (Some x).

Lemma drained_empty segs it n : instate segs it n n ->
  forall id l, leaves (ii_store it) !! id = Some (Some l) -> hollow (l_keys l) /\ hollow (l_vals l).
Proof.
  intros H id l El. pose proof (in_live _ _ _ _ H _ _ El) as Hin.
  apply elem_of_list_In, in_map_iff in Hin as ([id' kvs] & <- & Hin). simpl in *.
  apply elem_of_list_In, elem_of_list_split in Hin as (s1 & s2 & Es).
  destruct (in_leaves _ _ _ _ H _ _ _ _ Es) as (l' & El' & _ & _ & _ & Hk & Hv).
  rewrite El in El'. injection El' as <-.
  split; intros i x; [rewrite Hk|rewrite Hv]; (destruct (decide (i < 64)); [|done]); rewrite decide_False by lia; congruence.
Qed.

Lemma hollow_vacant {X} (s : slots X) : hollow s -> slots_vacant s = true.
Proof.
  induction s as [|o s IH]; intros H; [done|]. destruct o as [x|]; [by destruct (H 0 x)|].
  apply IH. intros i. apply (H (S i)).
Qed.

Lemma drop_leaves_ok (l : list (option (leaf K V))) :
  (forall id n, l !! id = Some (Some n) -> hollow (l_keys n) /\ hollow (l_vals n)) -> drop_leaves l = Ok tt.
Proof.
  induction l as [|o l IH]; intros H; [done|]. assert (drop_leaves l = Ok tt) as E.
  { apply IH. intros id. apply (H (S id)). }
  destruct o as [n|]; cbn [drop_leaves]; [|done]. unfold leaf_drop.
  destruct (H 0 n eq_refl) as [E1 E2]. rewrite !if_vacant_true by (by apply hollow_vacant). by rewrite obind_Ok.
Qed.

Lemma into_drop_ok T h t it lo hi : InvAt T h t -> instate (leaf_seq t) it lo hi ->
  inners (ii_store it) = inners (t_store T) -> into_iter_drop it = Ok (sub (flat t) lo hi).
Proof.
  intros HI H Hi. unfold into_iter_drop. rewrite (in_len _ _ _ _ H).
  destruct (into_drain_ok _ _ _ _ (S (hi - lo)) H) as (it' & -> & H' & Hi'); [lia|]. rewrite obind_Ok.
  rewrite drop_inners_ok; [|rewrite Hi', Hi; intros i n; by eapply inv_droppable].
  rewrite obind_Ok, drop_leaves_ok; [done|by eapply drained_empty].
Qed.

Lemma tree_drop_ok T h t : InvAt T h t -> tree_drop T = Ok (flat t).
Proof.
  intros HI. unfold tree_drop. destruct (into_new_ok _ _ _ HI) as (it & -> & H & Es). rewrite obind_Ok.
  rewrite (into_drop_ok _ _ _ _ _ _ HI H); [by rewrite sub_all|by rewrite Es].
Qed.

Lemma clear_ok T h t : InvAt T h t -> clear T = Ok tree_new.
Proof. intros HI. unfold clear. by rewrite (tree_drop_ok _ _ _ HI). Qed.

(** ** Clone *)
Lemma clone_opts_ok {X} (f : X -> outcome X) (l : list (option X)) :
  (forall i x, l !! i = Some (Some x) -> f x = Ok x) -> clone_opts f l = Ok l.
Proof.
  induction l as [|o l IH]; intros H; [done|]. assert (clone_opts f l = Ok l) as E.
  { apply IH. intros i. apply (H (S i)). }
  destruct o as [x|]; cbn [clone_opts].
  - rewrite (H 0 x eq_refl), obind_Ok, E. done.
  - by rewrite E.
Qed.

Lemma tree_clone_ok T h t : InvAt T h t -> tree_clone T = Ok T.
Proof.
  intros HI. unfold tree_clone, store_clone.
  rewrite clone_opts_ok.
  - rewrite obind_Ok. rewrite clone_opts_ok.
    + rewrite !obind_Ok. destruct T as [? ? ? s ?]. by destruct s.
    + intros i l El. destruct (inv_leaf_live rl ri SYNC _ _ _ _ _ HI El) as (kvs & s1 & s2 & Es & ->).
      apply leaf_clone_mk. pose proof (inv_seg_size rl ri SYNC T h t HI) as Hz.
      rewrite Es in Hz. apply Forall_app in Hz as [_ Hz]. apply Forall_cons in Hz as [Hz _]. done.
  - intros i n En. destruct (inv_droppable _ _ _ _ _ HI En) as (ks & cs & aus & Hf & ->). by apply inner_clone_mk.
Qed.
End Inv.
End IntoProof.
