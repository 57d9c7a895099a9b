(** User written searches, visitors and ranks that follow local rules. *)
From stdpp Require Import list sorting.
From Verif Require Import Base Slots BinSearch LeafNode InnerNode Store Tree Remove Iterators Augment BulkLoad History View
  SlotLemmas NodeLemmas Spec AugSpec SearchSpec Order Logical Descent InsertProof InvLemmas InsertTop
  RemoveLeaf RemoveInner RemoveProof RemoveTop Lookup RefProof AugProof ViewProof IterProof IntoProof HistProof HistTop AugTop.

Section QueryProof.
Context {K V A : Type} {KO : KeyOps K} {PF : Profile} {OL : OrdLaws K} {AO : AugOps K V A}.
Notation tr := (tr K V).
Notation tree := (tree K V A).
Context (R : A -> list (K * V) -> Prop) (HR : summary_ok R).

Section Shape.
Context (rl ri : nat) (Hrl1 : 1 <= rl).

Definition fair (t : tr) : Prop :=
  (exists m b h, nshape rl ri m b h t) /\ ascending (flat t) /\ separated (of_tr t).

Lemma fair_inv (SYNC : Prop) T h t : InvAt (A:=A) rl ri SYNC T h t -> fair t.
Proof.
  intros HI. split; [eexists _, _, _; apply HI|]. split; [by eapply inv_ascending|].
  by apply (inv_shows rl ri SYNC T h t HI).
Qed.

Lemma fair_leaf id kvs : fair (TLeaf id kvs) -> ascending kvs /\ length kvs <= 64.
Proof.
  intros ((m & b & h & Hs) & Ha & _). rewrite flat_leaf in Ha. split; [done|]. destruct h; [apply Hs|done].
Qed.

Lemma fair_node id ks ch : fair (TNode id ks ch) ->
  node_shows R ks (map aug_of ch) (map flat ch) /\ Forall fair ch.
Proof.
  intros ((m & b & h & Hs) & Ha & Hsep). destruct h as [|h]; [done|]. destruct Hs as (Hk & Hl & Hc).
  rewrite flat_node in Ha. inversion Hsep as [|? ? ? H1 H2]; subst.
  assert (forall c, c ∈ ch -> ascending (flat c)) as Hac.
  { intros c Hin. eapply asc_concat; [exact Ha|]. apply elem_of_list_fmap. by exists c. }
  split; [split|].
  - done.
  - apply Forall_map, Forall_forall. intros c Hin. destruct (chs_elem _ _ _ _ Hc Hin) as [Hx|Hx];
      by eapply (shape_flat_nonnil rl ri).
  - apply Forall2_fmap, Forall_Forall2_diag, Forall_forall. intros c Hin.
    destruct (chs_elem _ _ _ _ Hc Hin) as [Hx|Hx]; eapply aug_of_summary; eauto.
  - rewrite map_length. lia.
  - intros i s j l kv Hi Hj Hkv. rewrite list_lookup_fmap in Hj. destruct (ch !! j) as [c|] eqn:Ec; [|done].
    injection Hj as <-. eapply (H1 i s j (of_tr c)); [done|by rewrite list_lookup_fmap, Ec|by rewrite of_tr_entries].
  - apply Forall_forall. intros c Hin. split.
    + destruct (chs_elem _ _ _ _ Hc Hin) as [Hx|Hx]; eexists _, _, h; by apply shape_nshape.
    + split; [by apply Hac|]. rewrite Forall_forall in H2. apply H2. apply elem_of_list_fmap. by exists c.
Qed.
End Shape.

Section Search.
Context {Q : Type} {SO : SearchOps K V A Q} (S : list (K * V) -> Q -> option nat) (HS : search_rules R S).

Lemma search_ref rl ri T h t q : 1 <= rl -> InvAt (A:=A) rl ri True T h t -> h <= MAX_DEPTH ->
  match S (flat t) q with
  | None => get_ref_by_augmentation T q = Ok None
  | Some j => exists id kvs mA mB s1 s2 st off, reach t id kvs mA mB s1 s2 st /\
      get_ref_by_augmentation T q = Ok (Some (st, id, off)) /\
      off < length kvs /\ j = length (elems mA) + off
  end.
Proof.
  intros Hrl HI Hh. refine (ref_by_aug_inv (fair rl ri) S _ _ _ rl ri T h t q HI (fair_inv _ _ _ _ _ _ HI) Hh).
  - intros id kvs q' Hf. apply fair_leaf in Hf as [Ha Hl]. split; [by apply (sr_leaf _ _ HS)|].
    intros i Hi. by apply (sr_range _ _ HS) in Hi.
  - intros id ks ch q' Hf. apply fair_node in Hf as [Hn _]; [|done].
    pose proof (sr_inner _ _ HS _ _ _ q' Hn) as H. destruct (locate_in_inner _ _ _) as [[i q2]|]; [|done].
    destruct H as (l & Hl & E). rewrite list_lookup_fmap in Hl. destruct (ch !! i) as [c|] eqn:Ec; [|done].
    injection Hl as <-. apply elem_of_list_split_length in Ec as (cl & cr & -> & ->).
    exists cl, c, cr. split; [done|]. split; [done|]. rewrite E. rewrite map_app, take_app_alt by (by rewrite map_length). done.
  - intros id ks ch Hf. by apply fair_node in Hf as [_ ?].
Qed.

Lemma search_rules_found b ops rs T q : proper (A:=A) b ops -> exec b ops = Ok (rs, T) ->
  (Exists is_write ops -> key_aug (K:=K) (V:=V) (A:=A)) ->
  match S (spec_exec b ops).2 q with
  | None => get_ref_by_augmentation T q = Ok None
  | Some j => found b T (spec_exec b ops).2 q j
  end.
Proof.
  intros Hl E Hk. destruct (exec_inv_any True b ops rs T Hl E) as (ri & h & t & Hlow & Hri & HI & Hf & Ha & Hof); [auto|].
  assert (h <= MAX_DEPTH) as Hh.
  { eapply height_bound; [apply HI|]. rewrite Hf. apply fits_end, Hl. }
  pose proof (search_ref (low b) ri T h t q ltac:(lia) HI Hh) as H. rewrite Hf in H.
  destruct (S _ q) as [j|]; [|done].
  destruct H as (id & kvs & mA & mB & s1 & s2 & st & off & Rc & E' & Ho & Hj).
  by exists True, ri, h, t, id, kvs, mA, mB, s1, s2, st, off.
Qed.

Lemma search_rules_top b ops rs T q : proper (A:=A) b ops -> exec b ops = Ok (rs, T) ->
  (Exists is_write ops -> key_aug (K:=K) (V:=V) (A:=A)) ->
  let l := (spec_exec b ops).2 in
  get_by_augmentation T q = Ok (j ← S l q; l !! j) /\
  (removal_ok (A:=A) b l -> exists T', remove_by_augmentation T q = Ok (j ← S l q; l !! j, T') /\
    reachable b T' (match S l q with Some j => delete j l | None => l end)).
Proof.
  intros Hl E Hk l. assert (reachable b T l) as Hr by (by exists ops, rs).
  pose proof (search_rules_found b ops rs T q Hl E Hk) as H. fold l in H. destruct (S l q) as [j|].
  - destruct (found_get _ _ _ _ _ H) as (kv & El & ->). simpl. rewrite El. split; [done|].
    intros Ho. destruct (found_remove _ _ _ _ _ Hr Ho H) as (kv' & T' & El' & Er & Hr'). rewrite El in El'.
    injection El' as <-. by exists T'.
  - simpl. unfold get_by_augmentation, remove_by_augmentation. rewrite H. split; [done|]. intros _. by exists T.
Qed.
End Search.

Section Visit.
Context {St X : Type} (vis : visitor K V A St X) (D : St -> list (K * V) -> option X -> Prop) (HD : visit_rules vis R D).

Lemma visit_rules_walk rl ri (t : tr) st : 1 <= rl -> fair rl ri t ->
  exists o, walk vis (of_tr t) st = Ok o /\ D st (flat t) o.
Proof.
  intros Hrl. revert st. induction t as [id kvs|id ks ch IH] using tr_ind'; intros st Hf.
  - rewrite flat_leaf. apply fair_leaf in Hf as [Ha Hl]. eexists. split; [done|]. by apply (vr_leaf _ _ _ HD).
  - apply fair_node in Hf as [Hn Hc]; [|done]. rewrite flat_node. cbn [walk of_tr].
    assert (map view_aug (map of_tr ch) = map aug_of ch) as ->.
    { rewrite map_map. apply map_ext. apply of_tr_aug. }
    pose proof (vr_inner _ _ _ HD st _ _ _ Hn) as H. destruct (visit_inner vis st ks (map aug_of ch)) as [st' [i| |x]]; eauto.
    destruct H as (l & Hl & HDl). rewrite list_lookup_fmap in Hl. destruct (ch !! i) as [c|] eqn:Ec; [|done].
    injection Hl as <-. rewrite Forall_forall in IH, Hc. assert (c ∈ ch) as Hin by (by eapply elem_of_list_lookup_2).
    destruct (IH c Hin st' (Hc c Hin)) as (o & Eo & Ho). exists o. split; [|by apply HDl].
    rewrite map_map. rewrite <- Eo. apply nth_lookup_Some. by rewrite list_lookup_fmap, Ec.
Qed.

Lemma visit_rules_top b ops rs T st : proper (A:=A) b ops -> exec b ops = Ok (rs, T) ->
  (Exists is_write ops -> key_aug (K:=K) (V:=V) (A:=A)) ->
  exists o, descend_visit T vis st = Ok o /\ D st (spec_exec b ops).2 o.
Proof.
  intros Hl E Hk. destruct (exec_inv_any True b ops rs T Hl E) as (ri & h & t & Hlow & Hri & HI & Hf & Ha & Hof); [auto|].
  rewrite (visit_ok (low b) ri vis T h t st HI), <- Hf. apply (visit_rules_walk (low b) ri); [lia|]. by eapply fair_inv.
Qed.
End Visit.

Section Rank.
Context {X : Type} {RO : RankOps K V A X} (k : K) (F : X -> list (K * V) -> Prop) (Ans : list (K * V) -> result X X -> Prop).
Context (HF : rank_rules R k F Ans).

Lemma rank_path_ok rl ri h (path : list (list tr)) r l0 : 1 <= rl ->
  Forall (fun c => exists b' h', h' < h /\ shape rl ri b' h' c) (concat path) ->
  ascending (l0 ++ concat (map flat (concat path))) ->
  Forall (fun y => kcmp (fst y) k = Lt) (l0 ++ concat (map flat (concat path))) ->
  F r l0 -> F (fold_path k r path) (l0 ++ concat (map flat (concat path))).
Proof.
  intros Hrl. revert r l0. induction path as [|cl path IH]; intros r l0 Hs Ha Hk Hr.
  - simpl in *. by rewrite app_nil_r.
  - cbn [concat] in *. rewrite map_app, concat_app in *. rewrite app_assoc in *. apply Forall_app in Hs as [Hs1 Hs2].
    unfold fold_path. cbn [foldl]. apply IH; [done|done|done|].
    apply asc_app in Ha as [Ha _]. apply Forall_app in Hk as [Hk _].
    apply (rr_inner _ _ _ _ HF); try done.
    + apply Forall_map. eapply Forall_impl; [exact Hs1|]. intros c (b' & h' & _ & Hc). by eapply (shape_flat_nonnil rl ri).
    + apply Forall2_fmap, Forall_Forall2_diag, Forall_forall. intros c Hin. rewrite Forall_forall in Hs1.
      destruct (Hs1 c Hin) as (b' & h' & _ & Hc). eapply aug_of_summary; [exact Hrl|exact HR|exact Hc|].
      apply asc_app in Ha as [_ Ha]. eapply asc_concat; [exact Ha|]. apply elem_of_list_fmap. by exists c.
Qed.

Lemma rank_rules_top b ops rs T : proper (A:=A) b ops -> exec b ops = Ok (rs, T) ->
  (Exists is_write ops -> key_aug (K:=K) (V:=V) (A:=A)) ->
  exists x, rank_by_augmentation T k = Ok x /\ Ans (spec_exec b ops).2 x.
Proof.
  intros Hl E Hk. destruct (exec_inv_any True b ops rs T Hl E) as (ri & h & t & Hlow & Hri & HI & Hf & Ha & Hof); [auto|].
  rewrite <- Hf.
  destruct (rank_inv (low b) ri T h t k HI) as (path & id & kvs & mA & mB & s1 & s2 & st & r & Rc & FA & FB & _ & Ep & Hp & Hx & ->).
  eexists. split; [done|].
  assert (flat t = elems mA ++ kvs ++ elems mB) as Ef.
  { by rewrite <- elems_trav, (reach_trav _ _ _ _ _ _ _ _ Rc), !elems_app, elems_emark. }
  rewrite Ef. rewrite Ef in Ha. apply (rr_leaf _ _ _ _ HF); try done.
  - rewrite <- Ep. apply (rank_path_ok (low b) ri h path _ []); try done; [lia| | |apply HF].
    + simpl. rewrite Ep. by apply asc_app in Ha as [Ha _].
    + simpl. by rewrite Ep.
  - pose proof (inv_lvok (low b) ri True T h t HI) as Hlv. rewrite (proj1 (reach_seq _ _ _ _ _ _ _ _ Rc)) in Hlv.
    apply Forall_app in Hlv as [_ Hlv]. apply Forall_cons in Hlv as [(p & n & _ & Hz) _]. exact Hz.
  - destruct r as [i|i]; cbn [slot_is].
    + destruct Hx as (a & k' & v & b' & -> & -> & H1 & H2 & H3). by exists a, (k', v), b'.
    + destruct Hx as (a & b' & -> & -> & H1 & H2). by exists a, b'.
Qed.
End Rank.
End QueryProof.
