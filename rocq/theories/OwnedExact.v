(** Exactly which destructors a panic skips. *)
From stdpp Require Import list list_numbers sorting.
From Coq Require Import Lia.
From Verif Require Import Base Slots BinSearch LeafNode InnerNode Store Tree Iterators Owned OwnedSpec.
From Verif Require Import SlotLemmas NodeLemmas Spec Order Logical Descent InsertProof InvLemmas InsertTop Lookup IntoProof OwnedProof.

Lemma through_missing {X} (f : X -> bool) l j x : NoDup l -> l !! j = Some x ->
  x ∉ through f l <-> exists i y, i < j /\ l !! i = Some y /\ y ∈ through f l /\ f y = true.
Proof.
  revert j. induction l as [|z l IH]; intros j Hn Hj; [done|]. apply NoDup_cons in Hn as [Hz Hn]. cbn [through].
  destruct (f z) eqn:E.
  - rewrite elem_of_list_singleton. split.
    + intros Hx. exists 0, z. destruct j as [|j]; [destruct Hx; simpl in Hj; congruence|]. split_and!; [lia|done|by apply elem_of_list_singleton|done].
    + intros (i & y & Hi & Hy & Hyt & _) ->. apply elem_of_list_singleton in Hyt as ->.
      destruct j as [|j]; [lia|]. simpl in Hj. by apply elem_of_list_lookup_2 in Hj.
  - destruct j as [|j].
    + injection Hj as ->. rewrite elem_of_cons. split; [intros H; destruct H; by left|]. intros (i & y & Hi & _). lia.
    + simpl in Hj. assert (x <> z) as Hxz by (intros ->; by apply elem_of_list_lookup_2 in Hj).
      rewrite not_elem_of_cons. rewrite (IH j Hn Hj). split.
      * intros [_ (i & y & Hi & Hy & Hyt & Ey)]. exists (S i), y. split_and!; [lia|done|by right|done].
      * intros (i & y & Hi & Hy & Hyt & Ey). split; [done|]. destruct i as [|i]; [injection Hy as ->; congruence|].
        exists i, y. split_and!; [lia|done| |done]. by apply elem_of_cons in Hyt as [-> |?]; [congruence|].
Qed.

Section Exact.
Context {K V A : Type} {KO : KeyOps K} {PF : Profile} {OL : OrdLaws K} {OM : OrdMode} {AO : AugOps K V A}.
Notation into_iter := (into_iter K V A).
Notation seg := (nat * list (K * V))%type.
Context (bad : place -> bool).

Lemma key_at_pos (segs : list seg) (it : into_iter) lo hi j id o : instate segs it lo hi -> lo <= j < hi ->
  poss segs !! j = Some (id, o) ->
  exists kv, concat (map snd segs) !! j = Some kv /\ key_at (ii_store it) (LKey id o) = Some kv.1.
Proof.
  intros H Hj Hp. assert ((id, o) ∈ poss segs) as He by (by eapply elem_of_list_lookup_2).
  apply poss_elem in He as (kvs & He & Hi).
  pose proof (in_size _ _ _ _ H) as Hz. rewrite Forall_forall in Hz. specialize (Hz _ He). simpl in Hz.
  apply elem_of_list_split in He as (s1 & s2 & Es).
  assert (j = before s1 + o) as ->.
  { eapply NoDup_lookup; [exact (poss_NoDup segs (in_nodup _ _ _ _ H))|exact Hp|by eapply poss_lookup]. }
  destruct (lookup_lt_is_Some_2 kvs o Hi) as [kv Hkv]. exists kv. rewrite (segs_lookup segs s1 id kvs s2 o Es Hi). split; [done|].
  destruct (in_leaves _ _ _ _ H _ _ _ _ Es) as (l & El & _ & _ & _ & Hk & _). simpl. rewrite El, Hk.
  rewrite !decide_True by lia. unfold keysof. change (map fst kvs) with (fst <$> kvs). by rewrite list_lookup_fmap, Hkv.
Qed.

Lemma ascending_lt (l : list (K * V)) i j x y : ascending l -> l !! i = Some x -> l !! j = Some y ->
  i < j <-> kcmp x.1 y.1 = Lt.
Proof.
  intros Ha Hi Hj.
  assert (forall i j x y, l !! i = Some x -> l !! j = Some y -> i < j -> kcmp x.1 y.1 = Lt) as H.
  { clear -Ha. induction Ha as [|z l Ha IH Hz]; intros i j x y Hi Hj Hlt; [done|]. destruct j as [|j]; [lia|].
    destruct i as [|i]; [|eapply (IH i j); [done|done|lia]]. injection Hi as ->. simpl in Hj.
    rewrite Forall_forall in Hz. apply Hz. by eapply elem_of_list_lookup_2. }
  split; [by eapply H|]. intros Hlt. destruct (Nat.lt_trichotomy i j) as [|[-> |Hgt]]; [done| |].
  - rewrite Hi in Hj. injection Hj as ->. rewrite ord_refl in Hlt. done.
  - pose proof (H _ _ _ _ Hj Hi Hgt) as E. rewrite ord_sym, Hlt in E. done.
Qed.

Lemma ents_part l id o : LKey id o ∈ ents l <-> (id, o) ∈ l.
Proof.
  rewrite ents_elem. split; [by intros (? & ? & ? & [[= <- <-]|?])|]. intros H. exists id, o. split; [done|by left].
Qed.
Lemma ents_part' l id o : LVal id o ∈ ents l <-> (id, o) ∈ l.
Proof.
  rewrite ents_elem. split; [by intros (? & ? & ? & [?|[= <- <-]])|]. intros H. exists id, o. split; [done|by right].
Qed.

Lemma ebad_spec e : ebad bad e = true <-> bad (LKey e.1 e.2) = true \/ bad (LVal e.1 e.2) = true.
Proof. unfold ebad, ent. cbn [existsb]. rewrite orb_false_r. apply orb_true_iff. Qed.

(** The part of the plan that is inner node [id]. *)
Lemma plan_inner (s : store K V A) P tl id p : tl = [] \/ tl = [Root] -> in_inner id p ->
  p ∈ plan_of bad P (map snd (groups inner_places 0 (inners s))) tl <->
  exists n, inners s !! id = Some (Some n) /\ p ∈ through bad (inner_places id n).
Proof.
  intros Htl Hp. unfold plan_of. rewrite !elem_of_app. split.
  - intros [H|[H|H]].
    + apply ents_elem in H as (? & ? & _ & [-> | ->]); done.
    + apply elem_of_list_In, in_concat in H as (g & Hg & H). apply in_map_iff in Hg as (g' & <- & Hg).
      apply in_map_iff in Hg as ([id' g2] & <- & Hg). apply elem_of_list_In in H, Hg.
      apply groups_ids in Hg as (n & En & -> & _). simpl in H.
      assert (in_inner id' p) as Hp' by (eapply inner_places_in, prefix_elem; [apply through_prefix|done]).
      assert (id' = id) as -> by (destruct p; simpl in *; try done; congruence). rewrite Nat.sub_0_r in En. by exists n.
    + destruct Htl as [-> | ->]; [by apply elem_of_nil in H|]. by apply elem_of_list_singleton in H as ->.
  - intros (n & En & H). right. left. apply elem_of_list_In, in_concat. exists (through bad (inner_places id n)).
    split; [|by apply elem_of_list_In]. apply in_map, in_map_iff. exists (id, inner_places id n). split; [done|].
    apply elem_of_list_In. clear -En. cut (forall k, (k + id, inner_places (k + id) n) ∈ groups inner_places k (inners s)); [intros H; apply (H 0)|].
    revert id En. induction (inners s) as [|o l IH]; intros id En k; [done|]. cbn [groups]. destruct id as [|id].
    + injection En as ->. rewrite Nat.add_0_r. by left.
    + simpl in En. specialize (IH _ En (S k)). rewrite <- plus_n_Sm. destruct o; [right|]; exact IH.
Qed.

Lemma plan_leaf (s : store K V A) P tl p : tl = [] \/ tl = [Root] -> in_leaf p ->
  p ∈ plan_of bad P (map snd (groups inner_places 0 (inners s))) tl <-> p ∈ ents (through (ebad bad) P).
Proof.
  intros Htl Hp. unfold plan_of. rewrite !elem_of_app. split; [|by left]. intros [H|[H|H]]; [done| |].
  - assert (p ∈ concat (map snd (groups inner_places 0 (inners s)))) as Hq.
    { eapply concat_prefix_elem; [|exact H]. generalize (map snd (groups inner_places 0 (inners s))). clear.
      intros gs. induction gs as [|g gs IH]; simpl; constructor; [apply through_prefix|done]. }
    apply groups_elem in Hq as (j & n & _ & Hq%inner_places_in). by destruct p.
  - destruct Htl as [-> | ->]; [by apply elem_of_nil in H|]. by apply elem_of_list_singleton in H as ->.
Qed.

Lemma inner_index id (n : inner K A) p : p ∈ inner_places id n ->
  inner_places id n !! (match p with IKey _ i => i | IAug _ i => i_size n + i | _ => 0 end) = Some p.
Proof.
  unfold inner_places. intros [H|H]%elem_of_app; apply elem_seq in H as (i & -> & Hi).
  - rewrite lookup_app_l by (rewrite map_length, seq_length; lia).
    change (map (IKey id) ?l) with (IKey id <$> l). rewrite list_lookup_fmap, lookup_seq_lt by lia. done.
  - rewrite lookup_app_r by (rewrite map_length, seq_length; lia). rewrite map_length, seq_length.
    replace (i_size n + i - i_size n) with i by lia.
    change (map (IAug id) ?l) with (IAug id <$> l). rewrite list_lookup_fmap, lookup_seq_lt by lia. done.
Qed.

Lemma inner_sooner (s : store K V A) id (n : inner K A) q p : q ∈ inner_places id n -> p ∈ inner_places id n ->
  sooner s q p <-> match q with IKey _ i => i | IAug _ i => i_size n + i | _ => 0 end <
                          match p with IKey _ i => i | IAug _ i => i_size n + i | _ => 0 end.
Proof.
  unfold inner_places. intros [Hq|Hq]%elem_of_app [Hp|Hp]%elem_of_app;
    apply elem_seq in Hq as (i & -> & Hi); apply elem_seq in Hp as (j & -> & Hj); simpl; try (split; [lia|done || lia]).
  split; [|lia]. intros (? & ? & H & _). done.
Qed.

Lemma plan_exact segs (it : into_iter) lo hi tl p : instate segs it lo hi -> ascending (concat (map snd segs)) ->
  (forall i n, inners (ii_store it) !! i = Some (Some n) -> whole n) -> tl = [] \/ tl = [Root] ->
  holds (ii_store it) p ->
  let plan := plan_of bad (sub (poss segs) lo hi) (map snd (groups inner_places 0 (inners (ii_store it)))) tl in
  p ∉ plan <-> exists q, q ∈ plan /\ bad q = true /\ sooner (ii_store it) q p.
Proof.
  intros H Ha Hw Htl Hp plan. set (P := sub (poss segs) lo hi).
  pose proof (in_range _ _ _ _ H) as Hr.
  assert (NoDup P) as HP by (apply sub_NoDup, poss_NoDup, H).
  assert (forall j id o, P !! j = Some (id, o) -> exists kv, sub (concat (map snd segs)) lo hi !! j = Some kv /\
    key_at (ii_store it) (LKey id o) = Some kv.1) as HK.
  { intros j id o Hj. unfold P, sub in Hj. apply lookup_take_Some in Hj as [Hj Hlt]. rewrite lookup_drop in Hj.
    destruct (key_at_pos segs it lo hi (lo + j) id o H) as (kv & E & Ek); [lia|done|]. exists kv. split; [|done].
    unfold sub. rewrite lookup_take by lia. by rewrite lookup_drop. }
  assert (ascending (sub (concat (map snd segs)) lo hi)) as Ha'.
  { unfold sub, ascending in *. rewrite <- (take_drop lo (concat (map snd segs))) in Ha.
    apply StronglySorted_app_inv_r in Ha. rewrite <- (take_drop (hi - lo) (drop lo (concat (map snd segs)))) in Ha.
    by apply StronglySorted_app_inv_l in Ha. }
  assert (in_leaf p \/ (exists id, in_inner id p)) as [Hl|[id Hid]].
  { destruct p; try (by left); try (right; by eexists). }
  - assert (exists id o, (p = LKey id o \/ p = LVal id o) /\ (id, o) ∈ P /\
        entry_key (ii_store it) p = key_at (ii_store it) (LKey id o)) as (id & o & Ep & HpP & Eke).
    { pose proof (proj1 (in_holds segs it lo hi p H Hl) Hp) as Hpe. apply ents_elem in Hpe as (id & o & Hin & Ep).
      exists id, o. split; [done|]. split; [done|]. by destruct Ep as [-> | ->]. }
    assert (p ∈ plan <-> (id, o) ∈ through (ebad bad) P) as Hpl.
    { unfold plan. rewrite plan_leaf by done. destruct Ep as [-> | ->]; [apply ents_part|apply ents_part']. }
    rewrite Hpl. apply elem_of_list_lookup in HpP as [j Hj]. rewrite (through_missing _ _ _ _ HP Hj).
    destruct (HK _ _ _ Hj) as (kvp & Ekp & Ekk). rewrite Ekk in Eke. split.
    + intros (i & [id' o'] & Hi & Hy & Hyt & Ey). destruct (HK _ _ _ Hy) as (kvq & Ekq & Ekk').
      apply ebad_spec in Ey. simpl in Ey.
      assert (kcmp kvq.1 kvp.1 = Lt) as Hlt by (by apply (ascending_lt _ i j kvq kvp Ha')).
      destruct Ey as [Ey|Ey]; [exists (LKey id' o')|exists (LVal id' o')]; (split; [|split; [done|]]).
      * unfold plan. rewrite plan_leaf by done. by apply ents_part.
      * destruct Ep as [-> | ->]; simpl in *; eauto.
      * unfold plan. rewrite plan_leaf by done. by apply ents_part'.
      * destruct Ep as [-> | ->]; simpl in *; eauto.
    + intros (q & Hq & Eq & Hs).
      assert (exists kq kp, entry_key (ii_store it) q = Some kq /\ entry_key (ii_store it) p = Some kp /\ kcmp kq kp = Lt)
        as (kq & kp & Hkq & Hkp & Hlt) by (by destruct q, Ep as [-> | ->]).
      assert (exists id' o', (q = LKey id' o' \/ q = LVal id' o') /\ key_at (ii_store it) (LKey id' o') = Some kq) as (id' & o' & Eqq & Hkq').
      { destruct q as [id' o'|id' o'| | |]; try done; exists id', o'; [split; [by left|done]|split; [by right|done]]. }
      assert (in_leaf q) as Hlq by (by destruct Eqq as [-> | ->]).
      unfold plan in Hq. rewrite plan_leaf in Hq by done.
      assert ((id', o') ∈ through (ebad bad) P) as Hin.
      { destruct Eqq as [-> | ->]; [by apply ents_part|by apply ents_part']. }
      pose proof (prefix_elem _ _ _ (through_prefix (ebad bad) P) Hin) as HinP. apply elem_of_list_lookup in HinP as [i Hi].
      exists i, (id', o'). split_and!; [|done|done|apply ebad_spec; simpl; destruct Eqq as [-> | ->]; auto].
      destruct (HK _ _ _ Hi) as (kvq & Ekq & Ekk'). apply (ascending_lt _ i j kvq kvp Ha'); [done|done|]. congruence.
  - assert (exists n, inners (ii_store it) !! id = Some (Some n) /\ p ∈ inner_places id n) as (n & En & Hpn).
    { destruct p as [| |a i|a i|]; try done; simpl in Hid; subst a; destruct Hp as (n & En & Hf); exists n; (split; [done|]);
        apply inner_places_elem; eauto. }
    assert (forall q, in_inner id q -> q ∈ plan <-> q ∈ through bad (inner_places id n)) as Hpl.
    { intros q Hq. unfold plan. rewrite (plan_inner _ _ _ id) by done. split; [|by exists n].
      intros (n' & En' & Hq'). rewrite En in En'. by injection En' as <-. }
    rewrite (Hpl p Hid), (through_missing _ _ _ _ (inner_places_NoDup id n) (inner_index id n p Hpn)). split.
    + intros (i & q & Hi & Hq & Hqt & Eq).
      assert (q ∈ inner_places id n) as Hqn by (by eapply elem_of_list_lookup_2).
      exists q. split_and!; [by apply Hpl; [eapply inner_places_in|]|done|].
      apply (inner_sooner _ id n q p Hqn Hpn).
      replace (match q with IKey _ i => i | IAug _ i => i_size n + i | _ => 0 end) with i; [done|].
      eapply NoDup_lookup; [apply (inner_places_NoDup id n)|exact Hq|by apply inner_index].
    + intros (q & Hq & Eq & Hs).
      assert (in_inner id q) as Hqi.
      { destruct p, q; simpl in *; try done; try congruence; try (destruct Hs; congruence);
          destruct Hs as (? & ? & ? & ? & _); done. }
      apply Hpl in Hq; [|done]. pose proof (prefix_elem _ _ _ (through_prefix bad _) Hq) as Hqn.
      eexists _, q. split_and!; [|by apply inner_index|done|done]. by apply (inner_sooner _ id n q p Hqn Hpn) in Hs.
Qed.

Lemma run_last l tr m : m <> Aborted -> mood_of (run bad l (mkDrops tr m)) = Aborted ->
  exists l' q, dropped (run bad l (mkDrops tr m)) = tr ++ l' ++ [q] /\ bad q = true /\
    mood_after m (panics bad l') <> Aborted.
Proof.
  revert tr m. induction l as [|p l IH]; intros tr m Hm; [done|].
  change (run bad (p :: l) ?d) with (run bad l (drop_at bad p d)). unfold drop_at. cbn [mood_of dropped].
  destruct m; [| |done]; (destruct (bad p) eqn:Ep).
  - intros E. apply IH in E as (l' & q & -> & Eq & El); [|done]. exists (p :: l'), q. rewrite <- app_assoc.
    rewrite panics_cons, Ep. split_and!; [done|done|]. by destruct (panics bad l') as [|[|]].
  - intros E. apply IH in E as (l' & q & -> & Eq & El); [|done]. exists (p :: l'), q. rewrite <- app_assoc.
    by rewrite panics_cons, Ep.
  - intros _. rewrite run_aborted. by exists [], p.
  - intros E. apply IH in E as (l' & q & -> & Eq & El); [|done]. exists (p :: l'), q. rewrite <- app_assoc.
    by rewrite panics_cons, Ep.
Qed.

Lemma into_exact segs (it : into_iter) lo hi m d : instate segs it lo hi -> ascending (concat (map snd segs)) ->
  (forall i n, inners (ii_store it) !! i = Some (Some n) -> whole n) ->
  m <> Aborted -> into_drop_p bad it (mkDrops [] m) = Ok d ->
  (mood_of d = Aborted -> exists l' q, dropped d = l' ++ [q] /\ bad q = true /\ mood_after m (panics bad l') <> Aborted) /\
  (mood_of d <> Aborted -> forall p, holds (ii_store it) p ->
    p ∉ dropped d <-> exists q, q ∈ dropped d /\ bad q = true /\ sooner (ii_store it) q p).
Proof.
  intros H Ha Hw Hm. rewrite (into_drop_p_ok bad segs it lo hi _ H Hw).
  set (gs := map snd (groups inner_places 0 (inners (ii_store it)))). set (P := sub (poss segs) lo hi).
  assert (ents (through (ebad bad) P) ++ concat (map (through bad) gs) = plan_of bad P gs []) as ->
    by (unfold plan_of; by rewrite app_nil_r).
  destruct (run_plan bad P gs [] m) as (_ & _ & _ & _ & Hpl & _); [apply inner_groups|apply held_NoDup; [by apply sub_NoDup, poss_NoDup, H|by left]|].
  intros [= <-]. split; intros D.
  - by apply run_last in D.
  - intros p Hp. rewrite (Hpl D). apply (plan_exact segs it lo hi [] p H Ha Hw (or_introl eq_refl) Hp).
Qed.

Context (rl ri : nat) (SYNC : Prop) (Hrl1 : 1 <= rl).
Lemma tree_exact {OI : OrdIf K} T h t m d : InvAt rl ri SYNC T h t -> ascending (flat t) ->
  m <> Aborted -> tree_drop_p bad T (mkDrops [] m) = Ok d ->
  (mood_of d = Aborted -> exists l' q, dropped d = l' ++ [q] /\ bad q = true /\ mood_after m (panics bad l') <> Aborted) /\
  (mood_of d <> Aborted -> forall p, owns T p ->
    p ∉ dropped d <-> exists q, q ∈ dropped d /\ bad q = true /\ sooner (t_store T) q p).
Proof.
  intros HI Ha Hm. unfold tree_drop_p. destruct (into_new_ok rl ri SYNC Hrl1 T h t HI) as (it & -> & H & Es). rewrite obind_Ok.
  assert (forall i n, inners (ii_store it) !! i = Some (Some n) -> whole n) as Hw by (rewrite Es; by eapply inv_whole).
  rewrite (into_drop_p_ok bad _ it _ _ _ H Hw). rewrite obind_Ok.
  set (gs := map snd (groups inner_places 0 (inners (ii_store it)))). set (P := sub (poss (leaf_seq t)) 0 (length (flat t))).
  change (drop_at bad Root (run bad ?l ?d)) with (run bad [Root] (run bad l d)). rewrite <- run_app, <- app_assoc.
  fold (plan_of bad P gs [Root]).
  destruct (run_plan bad P gs [Root] m) as (_ & _ & _ & _ & Hpl & _); [apply inner_groups|apply held_NoDup; [by apply sub_NoDup, poss_NoDup, H|by right]|].
  intros [= <-]. split; intros D.
  - by apply run_last in D.
  - intros p Hp. rewrite (Hpl D). destruct Hp as [-> |Hp].
    + split.
      * intros Hn. destruct Hn. unfold plan_of. rewrite !elem_of_app. right. right. by left.
      * intros (q & _ & _ & Hs). destruct q; destruct Hs as (? & ? & _ & ? & _); done.
    + rewrite <- Es in Hp |- *. apply (plan_exact _ it _ _ [Root] p H Ha Hw (or_intror eq_refl) Hp).
Qed.
End Exact.
