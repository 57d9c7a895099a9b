(** Walking down from the root: every descent guided by a lookup argument
    reaches the leaf around that argument. *)
From stdpp Require Import list sorting.
From Verif Require Import Base Slots BinSearch LeafNode InnerNode Store Tree Remove
  SlotLemmas NodeLemmas Spec Order Logical.

Section Descent.
Context {K V A : Type} {KO : KeyOps K} {PF : Profile} {OM : OrdMode} {OI : OrdIf K} {AO : AugOps K V A}.
Notation tr := (tr K V).
Notation mark := (K * option V)%type.
Notation seg := (nat * list (K * V))%type.
Context (rl ri : nat) (SYNC : Prop).
Notation shape := (shape rl ri).
Notation nshape := (nshape rl ri).
Notation irep := (irep SYNC).
Notation node_rep := (node_rep SYNC).

Lemma seps_sublist (xss : list (list mark)) (ks : list K) : length ks <= length xss ->
  map (fun k => (k, None)) ks `sublist_of` interleave xss ks.
Proof.
  revert ks. induction xss as [|xs xss IH]; intros [|k ks] H; simpl in *; try lia.
  - constructor.
  - apply sublist_nil_l.
  - apply sublist_inserts_l. constructor. apply IH. lia.
Qed.

Lemma seps_sorted (ks : list K) : sortedm (map (fun k => (k, None (A:=V))) ks) ->
  StronglySorted (fun x y => kcmp x y = Lt) ks.
Proof.
  induction ks as [|k ks IH]; simpl; [constructor|]. intros H. apply sortedm_cons in H as [H1 H2].
  constructor; [by apply IH|]. rewrite Forall_map in H2. eapply Forall_impl; [done|].
  simpl. intros y. unfold ltm. simpl. destruct (kcmp k y); [|done|done]. by intros [_ ?].
Qed.

Lemma node_seps_sorted id (ks : list K) (ch : list tr) : sortedm (trav (TNode id ks ch)) ->
  length ch = S (length ks) -> StronglySorted (fun x y => kcmp x y = Lt) ks.
Proof.
  intros H Hl. apply seps_sorted. eapply sortedm_sublist; [|done].
  apply seps_sublist. rewrite map_length. lia.
Qed.

Lemma inner_locate_child_mk (p : probe K) ks cs (aus : list A) : inner_fits ks cs aus ->
  exists kl kr cl c cr, ks = kl ++ kr /\ cs = cl ++ c :: cr /\
    length kl = length cl /\ length kr = length cr /\
    (psorted p ks -> Forall (fun x => p x <> Gt) kl /\ Forall (fun x => p x = Gt) kr) /\
    inner_locate_child (mk_inner ks cs aus) p = Ok (length cl, c).
Proof.
  intros Hf. destruct (binary_search_any p ks) as (r & Hr & Hspec).
  unfold inner_locate_child. rewrite inner_keys_mk by done. rewrite obind_Ok, Hr, obind_Ok.
  destruct Hf as (H1 & H2 & H3). destruct r as [i|i].
  - destruct Hspec as (a & x & b & -> & Hi & Hx & Hab).
    rewrite app_length in H2. simpl in H2.
    destruct (lookup_lt_is_Some_2 cs (i + 1) ltac:(lia)) as [c Hc].
    pose proof (inner_child_id_mk (a ++ x :: b) cs aus _ _ Hc) as E. rewrite E, obind_Ok.
    destruct (split_at_elem _ _ _ Hc) as (cl & cr & -> & Hcl).
    rewrite app_length in H2. simpl in H2.
    exists (a ++ [x]), b, cl, c, cr. rewrite <- app_assoc. split_and!; auto.
    + rewrite app_length. simpl. lia.
    + lia.
    + intros [Ha Hb]%Hab. split; [|done].
      apply Forall_app. split; [eapply Forall_impl; [done|]; simpl; congruence|].
      constructor; [congruence|done].
    + by rewrite Hcl.
  - destruct Hspec as (a & b & -> & Hi & Hab). rewrite app_length in H2.
    destruct (lookup_lt_is_Some_2 cs i ltac:(lia)) as [c Hc].
    pose proof (inner_child_id_mk (a ++ b) cs aus _ _ Hc) as E. rewrite E, obind_Ok.
    destruct (split_at_elem _ _ _ Hc) as (cl & cr & -> & Hcl).
    rewrite app_length in H2. simpl in H2.
    exists a, b, cl, c, cr. split_and!; auto; try lia.
    + intros [Ha Hb]%Hab. split; [|done]. eapply Forall_impl; [done|]; simpl; congruence.
    + by rewrite Hcl.
Qed.

Lemma node_rep_fits is id (ks : list K) (ch : list tr) : node_rep is id ks ch ->
  length ks <= 64 -> length ch = S (length ks) ->
  exists aus, is !! id = Some (Some (mk_inner ks (map nid ch) aus)) /\
    inner_fits ks (map nid ch) aus /\ (SYNC -> aus = map aug_of ch).
Proof.
  intros (aus & H1 & H2 & H3) Hk Hc. exists aus. split_and!; auto.
  split_and!; [done|by rewrite map_length|lia].
Qed.

Lemma zl_last (cl : list tr) (kl : list K) : length kl = length cl ->
  match kl with
  | [] => zl cl kl = []
  | _ => exists z k, zl cl kl = z ++ [(k, None)] /\ k ∈ kl
  end.
Proof.
  intros H. destruct kl as [|k0 kl0]; [by destruct cl|].
  destruct (exists_last (l:=k0 :: kl0)) as (kl' & k & E); [done|]. rewrite E in *.
  destruct (exists_last (l:=cl)) as (cl' & c & ->); [by intros ->; rewrite app_length in H; simpl in H; lia|].
  rewrite !app_length in H. simpl in H.
  exists (zl cl' kl' ++ trav c), k. split.
  - rewrite zl_app by lia. rewrite zl_one. by rewrite app_assoc.
  - apply elem_of_app. right. by constructor.
Qed.

Lemma zl_mleft {OL : OrdLaws K} p (cl : list tr) (kl : list K) : probe_ok p -> length kl = length cl -> sortedm (zl cl kl) ->
  Forall (fun x => p x <> Gt) kl -> Forall (mleft p) (zl cl kl).
Proof.
  intros Hp Hl Hs Hk. pose proof (zl_last cl kl Hl) as H. destruct kl as [|k0 kl0].
  - rewrite H. constructor.
  - destruct H as (z & k & E & Hin). rewrite E in *.
    assert (mleft p (k, None (A:=V))) as Hm.
    { unfold mleft. simpl. rewrite Forall_forall in Hk. by apply Hk. }
    apply Forall_app. split; [|by constructor].
    apply Forall_forall. intros m Hin'. eapply ltm_mleft; [done| |exact Hm].
    apply sortedm_app in Hs as (_ & _ & Hs). apply Hs; [done|by constructor].
Qed.

Lemma zr_mright {OL : OrdLaws K} p (cr : list tr) (kr : list K) : probe_ok p -> length kr = length cr -> sortedm (zr kr cr) ->
  Forall (fun x => p x = Gt) kr -> Forall (mright p) (zr kr cr).
Proof.
  intros Hp Hl Hs Hk. destruct kr as [|k kr], cr as [|c cr]; try done; [constructor|].
  rewrite zr_cons in *. apply sortedm_cons in Hs as [_ Hs].
  apply Forall_cons in Hk as [Hk _]. constructor; [done|].
  rewrite Forall_forall in Hs. apply Forall_forall. intros m Hin. eapply ltm_mright; [done|by apply Hs|done].
Qed.

(** One step of a descent. *)
Lemma locate_step p is h id ks ch b m :
  (ORD -> probe_ok p) -> irep is (S h) (TNode id ks ch) -> nshape m b (S h) (TNode id ks ch) ->
  (ORD -> sortedm (trav (TNode id ks ch))) ->
  exists n kl kr cl c cr, is !! id = Some (Some n) /\
    inner_locate_child n p = Ok (length cl, nid c) /\
    ks = kl ++ kr /\ ch = cl ++ c :: cr /\ length kl = length cl /\ length kr = length cr /\
    (ORD -> Forall (mleft p) (zl cl kl)) /\ (ORD -> Forall (mright p) (zr kr cr)) /\
    irep is h c /\ shape (cflag b cr) h c /\ (ORD -> sortedm (trav c)).
Proof.
  intros Hp [Hn Hf] (Hk & Hc & Hs) Hsort.
  destruct (node_rep_fits _ _ _ _ Hn (proj2 Hk) Hc) as (aus & E & Hfit & _).
  destruct (inner_locate_child_mk p ks (map nid ch) aus Hfit)
    as (kl & kr & cl' & c' & cr' & -> & E2 & L1 & L2 & F & E3).
  assert (ORD -> Forall (fun x => p x <> Gt) kl /\ Forall (fun x => p x = Gt) kr) as F'.
  { intros HO. pose proof (ord_if HO). apply F, sorted_psorted; [by apply Hp|].
    eapply node_seps_sorted; [by apply Hsort|done]. }
  apply map_eq_app in E2 as (cl & cr0 & -> & E4 & E5).
  apply map_eq_cons in E5 as (c & cr & -> & E5 & E6). subst.
  rewrite map_length in *.
  rewrite trav_node in Hsort by done.
  assert (ORD -> sortedm (zl cl kl) /\ sortedm (trav c) /\ sortedm (zr kr cr)) as Hsort'.
  { intros HO. specialize (Hsort HO).
    apply sortedm_app in Hsort as (S1 & S2 & _). by apply sortedm_app in S2 as (S2 & S3 & _). }
  apply chs_app in Hs as (_ & Hs & _). apply Forall_app in Hf as [_ Hf]. apply Forall_cons in Hf as [Hf _].
  eexists _, kl, kr, cl, c, cr. split_and!; try done.
  - intros HO. pose proof (ord_if HO). destruct (F' HO), (Hsort' HO) as (? & _). apply zl_mleft; auto.
  - intros HO. pose proof (ord_if HO). destruct (F' HO), (Hsort' HO) as (_ & _ & ?). apply zr_mright; auto.
  - intros HO. by destruct (Hsort' HO) as (_ & ? & _).
Qed.

(** A descent guided by [p] on store [s] from [t] reaches leaf [id] along [st]. *)
Definition descends (s : store K V A) (p : probe K) (h : nat) (t : tr) (id : nat) (st : visit_stack) : Prop :=
  (forall fuel, h <= fuel -> descend_to_leaf fuel s (nid t) p = Ok id) /\
  (forall fuel st0, h <= fuel -> h + length st0 <= MAX_DEPTH ->
     key_to_ref_loop fuel s (nid t) p st0 = key_to_ref_loop (fuel - h) s (NLeaf id) p (st ++ st0)) /\
  (forall i k fuel st0, nid t = NInner i -> p = probe_key k -> h <= fuel -> h + length st0 <= MAX_DEPTH ->
     insert_descend fuel s i k st0 = Ok (st ++ st0, id)).

Lemma descend_nshape p s h t b m :
  (ORD -> probe_ok p) -> irep (inners s) h t -> nshape m b h t -> (ORD -> sortedm (trav t)) ->
  exists id kvs mA mB s1 s2 st, reach t id kvs mA mB s1 s2 st /\ length st = h /\
    (ORD -> Forall (mleft p) mA) /\ (ORD -> Forall (mright p) mB) /\ descends s p h t id st.
Proof.
  intros Hp. revert t b m. induction h as [|h IH]; intros [id kvs|id ks ch] b m Hr Hn Hs; try done.
  - exists id, kvs, [], [], [], [], []. split_and!; [constructor|done|intros _; constructor|intros _; constructor|].
    split_and!; try done.
    + intros [|fuel]; done.
    + intros fuel st0 _ _. simpl. by rewrite Nat.sub_0_r.
  - destruct (locate_step p (inners s) h id ks ch b m Hp Hr Hn Hs)
      as (n & kl & kr & cl & c & cr & E1 & E2 & -> & -> & L1 & L2 & F1 & F2 & Hr' & Hn' & Hs').
    destruct (IH c (cflag b cr) _ Hr' (proj1 (shape_nshape _ _ _ _ _) Hn') Hs')
      as (lid & kvs & mA & mB & s1 & s2 & st & R & Lst & FA & FB & D1 & D2 & D3).
    eexists lid, kvs, (zl cl kl ++ mA), (mB ++ zr kr cr), _, _, (st ++ [(id, length cl, nid c)]).
    split_and!.
    + by constructor.
    + rewrite app_length. simpl. lia.
    + intros HO. apply Forall_app. auto.
    + intros HO. apply Forall_app. auto.
    + assert (get_inner s id = Ok n) as Hg by (unfold get_inner; by rewrite E1).
      split_and!.
      * intros [|fuel] Hfu; [lia|]. cbn [descend_to_leaf nid]. rewrite Hg, obind_Ok, E2, obind_Ok.
        apply D1. lia.
      * intros [|fuel] st0 Hfu Hd; [lia|]. cbn [key_to_ref_loop nid]. rewrite Hg, obind_Ok, E2, obind_Ok.
        unfold stack_push. rewrite decide_True by lia. rewrite obind_Ok.
        rewrite D2 by (simpl; lia). rewrite <- app_assoc. done.
      * intros i k [|fuel] st0 Hi Hk Hfu Hd; [lia|]. injection Hi as <-. subst p.
        cbn [insert_descend]. rewrite Hg, obind_Ok, E2, obind_Ok.
        unfold stack_push. rewrite decide_True by lia. rewrite obind_Ok.
        destruct c as [lid' kvs'|cid cks cch].
        { inversion R; subst. done. }
        cbn [nid]. rewrite (D3 cid k) by (done || simpl; lia). by rewrite <- app_assoc.
Qed.

End Descent.
