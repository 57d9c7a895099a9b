(** Every program runs, whatever code compares the keys. *)
From stdpp Require Import list sorting.
From Verif Require Import Base Slots BinSearch LeafNode InnerNode Store Tree Remove Iterators Observe Cursor
  BulkLoad InsertParts Volatile History SlotLemmas NodeLemmas Spec AugSpec AnySpec Order Logical Descent InsertProof InvLemmas InsertTop
  RemoveLeaf RemoveInner RemoveProof RemoveTop Lookup IterProof IntoProof BulkProof HistTop AnyProof VolatileSpec.

Section Does.
Context {W : Type}.
(** [m] never fails; it returns something [Q], or unwinds and [P] holds. *)
Definition does {X} (m : comp W X) (Q : X -> Prop) (P : Prop) : Prop :=
  forall w, exists r w', m w = Ok (r, w') /\ match r with Some x => Q x | None => P end.

Lemma does_ret {X} (x : X) (Q : X -> Prop) P : Q x -> does (cret x) Q P.
Proof. intros H w. by exists (Some x), w. Qed.
Lemma does_lift {X} (e : outcome X) x (Q : X -> Prop) P : e = Ok x -> Q x -> does (clift e) Q P.
Proof. intros -> H w. by exists (Some x), w. Qed.
Lemma does_bind {X Y} (m : comp W X) (f : X -> comp W Y) Q R P : does m Q P -> (forall x, Q x -> does (f x) R P) ->
  does (cbind m f) R P.
Proof.
  intros Hm Hf w. destruct (Hm w) as (r & w1 & E & Hr). unfold cbind. rewrite E, obind_Ok.
  destruct r as [x|]; [by apply Hf|]. by exists None, w1.
Qed.
Lemma does_lift_bind {X Y} (e : outcome X) x (f : X -> comp W Y) R P : e = Ok x -> does (f x) R P ->
  does (cbind (clift e) f) R P.
Proof. intros E Hf. apply (does_bind _ _ (fun y => y = x)); [by apply (does_lift _ x)|]. by intros ? ->. Qed.
Lemma does_weaken {X} (m : comp W X) (Q R : X -> Prop) P : does m Q P -> (forall x, Q x -> R x) -> does m R P.
Proof. intros Hm Hq w. destruct (Hm w) as (r & w' & E & Hr). exists r, w'. split; [done|]. destruct r; auto. Qed.
Lemma does_ask {K} (c : code W K) x : does (ask c x) (fun a => a = Eq -> says_eq c x) (panics c).
Proof.
  intros w. unfold ask. destruct (c w x) as [[a|] w'] eqn:E; eexists _, _; (split; [done|]).
  - intros ->. by exists w, w'.
  - by exists w, x, w'.
Qed.
End Does.

Section VolatileProof.
Context {W K V A : Type} {KO : KeyOps K} {PF : Profile} {OM : OrdMode} {OI : OrdIf K} {AO : AugOps K V A} (HF : ~ ORD).
Notation tr := (tr K V).
Notation tree := (tree K V A).
Notation store := (store K V A).
Implicit Types (c : code W K).

(** ** Searching a node *)
Lemma bsearch_does fuel c (l : list K) left right : left <= right -> right <= length l -> right - left < fuel ->
  does (bsearch_loop_c fuel c l left right)
    (fun r => match r with ROk i => exists x, l !! i = Some x /\ says_eq c x | RErr i => i <= length l end) (panics c).
Proof.
  revert left right. induction fuel as [|fuel IH]; intros left right H1 H2 H3; [lia|].
  cbn [bsearch_loop_c]. destruct (decide (left < right)) as [Hlt|Hge]; [|apply does_ret; lia].
  set (mid := left + Nat.div2 (right - left)).
  assert (left <= mid < right) as Hm.
  { unfold mid. pose proof (Nat.lt_div2 (right - left)). lia. }
  destruct (lookup_lt_is_Some_2 l mid ltac:(lia)) as [x Hx]. rewrite Hx.
  eapply does_bind; [apply does_ask|]. intros [] Ha; [|apply IH; lia..].
  apply does_ret. exists x. auto.
Qed.

(** [kvs] with a slot in it: an entry called equal, or a gap. *)
Definition slot_in c (kvs : list (K * V)) (r : result nat nat) : Prop :=
  match r with
  | ROk i => exists a k v b, kvs = a ++ (k, v) :: b /\ i = length a /\ says_eq c k
  | RErr i => exists a b, kvs = a ++ b /\ i = length a
  end.

Lemma locate_slot_does c (kvs : list (K * V)) pv nx : length kvs <= 64 ->
  does (leaf_locate_slot_c (mk_leaf kvs pv nx) c) (slot_in c kvs) (panics c).
Proof.
  intros Hl. unfold leaf_locate_slot_c. eapply does_lift_bind; [by apply leaf_keys_mk|].
  eapply does_weaken; [apply bsearch_does; lia|]. intros [i|i] Hr; simpl in *.
  - destruct Hr as (k & Hk & He). unfold keysof in Hk. change (map fst kvs) with (fst <$> kvs) in Hk.
    rewrite list_lookup_fmap in Hk. destruct (kvs !! i) as [[k' v]|] eqn:E; [|done]. injection Hk as <-.
    destruct (split_at_elem _ _ _ E) as (a & b & -> & <-). by exists a, k', v, b.
  - rewrite keysof_length in Hr. exists (take i kvs), (drop i kvs). rewrite take_drop, take_length. split; [done|lia].
Qed.

Lemma locate_child_does c ks cs (aus : list A) : inner_fits ks cs aus ->
  does (inner_locate_child_c (mk_inner ks cs aus) c) (fun x => cs !! x.1 = Some x.2) (panics c).
Proof.
  intros Hf. unfold inner_locate_child_c. eapply does_lift_bind; [by apply inner_keys_mk|].
  pose proof Hf as (H1 & H2 & H3).
  eapply does_bind; [apply bsearch_does; lia|]. intros [i|i] Hr; simpl in Hr.
  - destruct Hr as (x & Hx & _). apply lookup_lt_Some in Hx.
    destruct (lookup_lt_is_Some_2 cs (i + 1) ltac:(lia)) as [y Hy].
    eapply does_lift_bind; [by apply inner_child_id_mk|]. by apply does_ret.
  - destruct (lookup_lt_is_Some_2 cs i ltac:(lia)) as [y Hy].
    eapply does_lift_bind; [by apply inner_child_id_mk|]. by apply does_ret.
Qed.

Lemma locate_value_does c (kvs : list (K * V)) pv nx : length kvs <= 64 ->
  does (leaf_locate_slot_with_value_c (mk_leaf kvs pv nx) c) (fun x => x.1 <= length kvs /\ val_of c kvs x.2) (panics c).
Proof.
  intros Hl. unfold leaf_locate_slot_with_value_c. eapply does_bind; [by apply locate_slot_does|].
  intros [i|i]; cbn [slot_in].
  - intros (a & k & v & b & -> & -> & He). cbn [l_vals mk_leaf]. eapply does_lift_bind.
    { apply slot_get_mk, (valsof_lookup _ _ k v). by apply lookup_middle'. }
    apply does_ret. cbn [fst snd]. split; [rewrite app_length; lia|]. exists k. split; [ss|done].
  - intros (a & b & -> & ->). apply does_ret. split; [rewrite app_length; cbn; lia|done].
Qed.

(** ** Descents *)
Section Inv.
Context (rl ri : nat) (Hrl1 : 1 <= rl) (Hrl2 : rl <= 16) (Hri : ri <= 16).
Notation InvAt := (InvAt (A:=A) rl ri False).

(** One step down. *)
Lemma child_does c (s : store) h id ks (ch : list tr) b m : irep False (inners s) (S h) (TNode id ks ch) ->
  nshape rl ri m b (S h) (TNode id ks ch) ->
  exists n, get_inner s id = Ok n /\
  does (inner_locate_child_c n c) (fun x => exists kl kr cl y cr, ks = kl ++ kr /\ ch = cl ++ y :: cr /\
    length kl = length cl /\ length kr = length cr /\ x = (length cl, nid y) /\
    irep False (inners s) h y /\ nshape rl ri (smin rl ri (cflag b cr) h) (cflag b cr) h y) (panics c).
Proof.
  intros [Hn Hf] (Hk & Hc & Hs).
  destruct (node_rep_fits _ _ _ _ _ Hn (proj2 Hk) Hc) as (aus & E & Hfit & _).
  exists (mk_inner ks (map nid ch) aus). split; [unfold get_inner; by rewrite E|].
  eapply does_weaken; [by apply locate_child_does|]. intros [i x] Hx. cbn [fst snd] in Hx.
  change (map nid ch) with (nid <$> ch) in Hx. rewrite list_lookup_fmap in Hx.
  destruct (ch !! i) as [y|] eqn:Ey; [|done]. injection Hx as <-.
  destruct (split_at_elem _ _ _ Ey) as (cl & cr & -> & <-).
  rewrite app_length in Hc. simpl in Hc.
  exists (take (length cl) ks), (drop (length cl) ks), cl, y, cr. rewrite take_drop, take_length, drop_length.
  apply chs_app in Hs as (_ & Hs & _). apply Forall_app in Hf as [_ Hf]. apply Forall_cons in Hf as [Hf _].
  split_and!; [done|done|lia|lia|done|done|]. by apply shape_nshape.
Qed.

Lemma to_leaf_does c (s : store) h (t : tr) b m fuel : irep False (inners s) h t -> nshape rl ri m b h t -> h <= fuel ->
  does (descend_to_leaf_c fuel s (nid t) c) (fun id => exists s1 kvs s2, leaf_seq t = s1 ++ (id, kvs) :: s2) (panics c).
Proof.
  revert t b m fuel. induction h as [|h IH]; intros [id kvs|id ks ch] b m fuel Hi Hn Hle; try done.
  - destruct fuel; (apply does_ret; by exists [], kvs, []).
  - destruct fuel as [|fuel]; [lia|]. cbn [descend_to_leaf_c nid].
    destruct (child_does c s h id ks ch b m Hi Hn) as (n & En & Hd).
    eapply does_lift_bind; [exact En|]. eapply does_bind; [exact Hd|].
    intros [i x] (kl & kr & cl & y & cr & -> & -> & L1 & L2 & [= -> ->] & Hiy & Hny).
    eapply does_weaken; [eapply IH; [done|exact Hny|lia]|]. intros lid (s1 & kvs & s2 & Es).
    exists (concat (map leaf_seq cl) ++ s1), kvs, (s2 ++ concat (map leaf_seq cr)).
    simpl. rewrite map_app, concat_app. simpl. rewrite Es, <- !app_assoc. done.
Qed.

Lemma insert_descend_does c (s : store) h (t : tr) b m fuel i st0 : irep False (inners s) h t -> nshape rl ri m b h t ->
  h <= fuel -> nid t = NInner i -> h + length st0 <= MAX_DEPTH ->
  does (insert_descend_c fuel s i c st0) (fun x => exists kvs mA mB s1 s2 st,
    reach t x.2 kvs mA mB s1 s2 st /\ x.1 = st ++ st0) (panics c).
Proof.
  revert t b m fuel i st0. induction h as [|h IH]; intros [id kvs|id ks ch] b m fuel i st0 Hi Hn Hle Eid Hd; try done.
  injection Eid as <-. destruct fuel as [|fuel]; [lia|]. cbn [insert_descend_c].
  destruct (child_does c s h id ks ch b m Hi Hn) as (n & En & Hc).
  eapply does_lift_bind; [exact En|]. eapply does_bind; [exact Hc|].
  intros [i x] (kl & kr & cl & y & cr & -> & -> & L1 & L2 & [= -> ->] & Hiy & Hny).
  eapply does_lift_bind; [unfold stack_push; rewrite decide_True by lia; done|].
  destruct y as [lid kvs|id' ks' ch']; cbn [nid].
  - apply does_ret. eexists kvs, _, _, _, _, _. split; [apply (reach_node id kl kr cl (TLeaf lid kvs) cr lid kvs [] [] [] [] []); [done|done|constructor]|done].
  - eapply does_weaken; [eapply (IH (TNode id' ks' ch')); [done|exact Hny|lia|done|simpl; lia]|].
    intros [st1 lid] (kvs & mA & mB & s1 & s2 & st & R & E). cbn [fst snd] in *.
    eexists kvs, _, _, _, _, _. split; [by apply (reach_node _ _ _ _ _ _ _ _ mA mB s1 s2 st)|].
    rewrite E, <- app_assoc. done.
Qed.

Lemma key_to_ref_does c (s : store) h (t : tr) b m fuel st0 :
  (forall s1 id kvs s2, leaf_seq t = s1 ++ (id, kvs) :: s2 -> length kvs <= 64 /\ exists pv nx, leaves s !! id = Some (Some (mk_leaf kvs pv nx))) ->
  irep False (inners s) h t -> nshape rl ri m b h t -> h <= fuel -> h + length st0 <= MAX_DEPTH ->
  does (key_to_ref_loop_c fuel s (nid t) c st0) (fun o => match o with
    | None => True
    | Some (stack, id, off) => exists kvs mA mB s1 s2 st k v, reach t id kvs mA mB s1 s2 st /\ stack = st ++ st0 /\
        kvs !! off = Some (k, v) /\ says_eq c k
    end) (panics c).
Proof.
  revert t b m fuel st0. induction h as [|h IH]; intros [id kvs|id ks ch] b m fuel st0 Hlv Hi Hn Hle Hd; try done.
  - destruct (Hlv [] id kvs []) as (Hz & pv & nx & El); [done|].
    assert (does (do! n := clift (get_leaf s id) in do! r := leaf_locate_slot_c n c in
      match r with ROk idx => cret (Some (st0, id, idx)) | RErr _ => cret None end) (fun o => match o with
    | None => True
    | Some (stack, id', off) => exists kvs' mA mB s1 s2 st k v, reach (TLeaf id kvs) id' kvs' mA mB s1 s2 st /\ stack = st ++ st0 /\
        kvs' !! off = Some (k, v) /\ says_eq c k
    end) (panics c)) as H.
    { eapply does_lift_bind; [unfold get_leaf; by rewrite El|]. eapply does_bind; [by apply locate_slot_does|].
      intros [i|i]; cbn [slot_in].
      - intros (a & k & v & b' & -> & -> & He). apply does_ret. eexists _, _, _, _, _, [], k, v.
        split; [constructor|]. split; [done|]. split; [by apply lookup_middle'|done].
      - intros _. by apply does_ret. }
    destruct fuel; exact H.
  - destruct fuel as [|fuel]; [lia|]. cbn [key_to_ref_loop_c nid].
    destruct (child_does c s h id ks ch b m Hi Hn) as (n & En & Hc).
    eapply does_lift_bind; [exact En|]. eapply does_bind; [exact Hc|].
    intros [i x] (kl & kr & cl & y & cr & -> & -> & L1 & L2 & [= -> ->] & Hiy & Hny).
    eapply does_lift_bind; [unfold stack_push; rewrite decide_True by lia; done|].
    eapply does_weaken; [eapply IH; [|done|exact Hny|lia|simpl; lia]|].
    + intros s1 lid kvs s2 Es.
      apply (Hlv (concat (map leaf_seq cl) ++ s1) lid kvs (s2 ++ concat (map leaf_seq cr))).
      simpl. rewrite map_app, concat_app. simpl. rewrite Es, <- !app_assoc. done.
    + intros [[[st1 lid] off]|]; [|done].
      intros (kvs & mA & mB & s1 & s2 & st & k & v & R & E & Hk & He).
      eexists kvs, _, _, _, _, _, k, v. split; [by apply (reach_node _ _ _ _ _ _ _ _ mA mB s1 s2 st)|].
      rewrite E, <- app_assoc. done.
Qed.

(** ** The leaf cache *)
Lemma in_range_does c T h t id l : InvAt T h t -> leaves (t_store T) !! id = Some (Some l) ->
  does (leaf_in_range_c l c) (fun _ => True) (panics c).
Proof.
  intros HI El. destruct (inv_leaf_live _ _ _ _ _ _ _ _ HI El) as (kvs & s1 & s2 & Es & ->).
  unfold leaf_in_range_c. cbn [l_prev l_next l_size l_keys mk_leaf].
  assert (kvs <> [] \/ s1 = [] /\ s2 = []) as Hk.
  { destruct (inv_segs rl ri False Hrl1 _ _ _ HI) as [[i E]|E].
    - rewrite Es in E. right. destruct s1 as [|? s1]; [|by destruct s1]. simpl in E. by destruct s2.
    - left. rewrite Es in E. apply Forall_app in E as [_ E]. by apply Forall_cons in E as [E _]. }
  destruct Hk as [Hk|[-> ->]].
  2: { simpl. eapply does_bind; [by apply (does_ret _ (fun x => x = false))|]. intros x ->.
       eapply does_bind; [by apply (does_ret _ (fun x => x = false))|]. intros x ->. by apply does_ret. }
  destruct kvs as [|[k0 v0] kvs]; [done|].
  eapply (does_bind _ _ (fun _ => True)).
  { destruct (last_id None s1); [|by apply does_ret]. eapply does_lift_bind; [by apply (slot_get_mk _ _ _ k0)|].
    eapply does_bind; [apply does_ask|]. intros a _. by apply does_ret. }
  intros [] _; [by apply does_ret|]. eapply (does_bind _ _ (fun _ => True)).
  { destruct (hd_id s2 None); [|by apply does_ret]. cbn [length usize_pred]. eapply does_lift_bind; [done|].
    destruct (lookup_lt_is_Some_2 ((k0, v0) :: kvs) (length kvs)) as [[k1 v1] E1]; [simpl; lia|].
    eapply does_lift_bind; [apply (slot_get_mk _ _ _ k1); by eapply keysof_lookup|].
    eapply does_bind; [apply does_ask|]. intros a _. by apply does_ret. }
  intros x _. by apply does_ret.
Qed.

(** A leaf of the tree. *)
Definition leaf_of (t : tr) (id : nat) : Prop := exists s1 kvs s2, leaf_seq t = s1 ++ (id, kvs) :: s2.

Lemma live_leaf_of T h t id l : InvAt T h t -> leaves (t_store T) !! id = Some (Some l) -> leaf_of t id.
Proof. intros HI El. destruct (inv_leaf_live _ _ _ _ _ _ _ _ HI El) as (kvs & s1 & s2 & Es & _). by exists s1, kvs, s2. Qed.

Lemma try_cache_does c T h t : InvAt T h t ->
  does (try_cache_c (t_store T) c) (fun o => match o with Some id => leaf_of t id | None => True end) (panics c).
Proof.
  intros HI. unfold try_cache_c, try_get_leaf. destruct (cached (t_store T)) as [id|]; [|by apply does_ret].
  destruct (leaves (t_store T) !! id) as [[l|]|] eqn:El; [|by apply does_ret..].
  eapply does_bind; [by eapply in_range_does|]. intros [] _; apply does_ret; [|done]. by eapply live_leaf_of.
Qed.

Lemma descend_does c T h t : InvAt T h t ->
  does (descend_to_leaf_c (descend_fuel (t_store T)) (t_store T) (t_root T) c) (leaf_of t) (panics c).
Proof.
  intros HI. rewrite (inv_root _ _ _ _ _ _ HI). eapply to_leaf_does; [apply HI..|exact (fuel_inv rl ri False _ _ _ HI)].
Qed.

Lemma leaf_of_get T h t id : InvAt T h t -> leaf_of t id -> exists s1 kvs s2,
  leaf_seq t = s1 ++ (id, kvs) :: s2 /\ length kvs <= 64 /\
  get_leaf (t_store T) id = Ok (mk_leaf kvs (last_id None s1) (hd_id s2 None)).
Proof.
  intros HI (s1 & kvs & s2 & Es). exists s1, kvs, s2. split; [done|]. split.
  - pose proof (inv_seg_size rl ri False _ _ _ HI) as Hsz. rewrite Es in Hsz.
    apply Forall_app in Hsz as [_ Hsz]. by apply Forall_cons in Hsz as [Hsz _].
  - unfold get_leaf. by rewrite (inv_leaf _ _ _ _ _ _ _ _ _ _ HI Es).
Qed.

Lemma val_of_flat c (o : option V) (t : tr) s1 id kvs s2 : leaf_seq t = s1 ++ (id, kvs) :: s2 ->
  val_of c kvs o -> val_of c (flat t) o.
Proof.
  clear. intros Es. destruct o as [v|]; [|done]. intros (k & Hin & Hk). exists k. split; [|done].
  unfold flat. rewrite Es, map_app, concat_app. simpl. ss.
Qed.

Lemma find_does c T h t id : InvAt T h t -> leaf_of t id ->
  does (find_in_leaf_c (t_store T) id c) (val_of c (flat t)) (panics c).
Proof.
  intros HI Hl. destruct (leaf_of_get T h t id HI Hl) as (s1 & kvs & s2 & Es & Hz & El). unfold find_in_leaf_c.
  eapply does_lift_bind; [exact El|]. eapply does_bind; [by apply locate_value_does|].
  intros [i o] [_ Ho]. apply does_ret. by eapply val_of_flat.
Qed.

(** ** The calls *)
(** The call never fails and leaves a tree that satisfies the invariant. *)
Definition call_ok {X} (m : call (A:=A) X) (t : tr) (Q : X -> list (K * V) -> Prop) (P : Prop) : Prop :=
  forall w : W, exists r T' w' h' t', m w = Ok (r, T', w') /\ InvAt T' h' t' /\
    match r with Some x => Q x (flat t') | None => P /\ flat t' = flat t end.

Lemma leaving_ok {X} T h t (m : comp W (X * tree)) Q P : InvAt T h t ->
  does m (fun x => exists h' t', InvAt x.2 h' t' /\ Q x.1 (flat t')) P -> call_ok (leaving T m) t Q P.
Proof.
  intros HI Hm w. destruct (Hm w) as (r & w' & E & Hr). unfold leaving. rewrite E, obind_Ok.
  destruct r as [[x T']|].
  - destruct Hr as (h' & t' & HI' & HQ). exists (Some x), T', w', h', t'. done.
  - exists None, T, w', h, t. done.
Qed.

Lemma get_c_ok c T h t : InvAt T h t ->
  call_ok (get_c T c) t (fun o l => val_of c (flat t) o /\ l = flat t) (panics c).
Proof.
  intros HI w. unfold get_c. destruct (try_cache_does c T h t HI w) as (r & w1 & -> & Hr). rewrite obind_Ok.
  destruct r as [[id|]|].
  - refine (leaving_ok T h t _ (fun o l => val_of c (flat t) o /\ l = flat t) _ HI _ w1). eapply does_bind; [by eapply find_does|]. intros o Ho. apply does_ret. by exists h, t.
  - destruct (descend_does c T h t HI w1) as (r & w2 & -> & Hr2). rewrite obind_Ok. destruct r as [id|].
    + pose proof (inv_cache _ _ _ _ _ _ (Some id) HI) as HI'.
      change (mkStore _ _ _) with (cache_leaf (t_store T) id) in HI'.
      refine (leaving_ok _ h t _ (fun o l => val_of c (flat t) o /\ l = flat t) _ HI' _ w2). eapply does_bind; [by eapply find_does|]. intros o Ho. apply does_ret. by exists h, t.
    + exists None, T, w2, h, t. done.
  - exists None, T, w1, h, t. done.
Qed.

Lemma write_does c T h t id f : InvAt T h t -> leaf_of t id ->
  does (find_in_leaf_mut_c (t_store T) id c f) (fun x => exists t', InvAt (with_store T x.2) h t' /\
    one_written c f (flat t) x.1 (flat t')) (panics c).
Proof.
  intros HI Hl. destruct (leaf_of_get T h t id HI Hl) as (s1 & kvs & s2 & Es & Hz & El). unfold find_in_leaf_mut_c.
  eapply does_lift_bind; [exact El|]. eapply does_bind; [by apply locate_slot_does|].
  destruct (leaf_seq_reach rl ri t s1 id kvs s2 h _ _ (inv_shape _ _ _ _ _ _ HI) Es) as (mA & mB & st & R).
  assert (flat t = elems mA ++ kvs ++ elems mB) as Ef.
  { by rewrite <- elems_trav, (reach_trav _ _ _ _ _ _ _ _ R), !elems_app, elems_emark. }
  intros [i|i]; cbn [slot_in].
  - intros (a & k & v & b & Ek & -> & He). eapply does_lift_bind.
    { apply (leaf_value_at_mut_mk _ _ _ _ k v). rewrite Ek. by apply lookup_middle'. }
    rewrite Ek, insert_middle' by done. apply does_ret. cbn [fst snd].
    destruct (leaf_write_ok rl ri False Hrl1 T h t id kvs mA mB s1 s2 st (a ++ (k, f v) :: b) (cached (t_store T)) HI R) as (t' & HI' & Et' & _).
    { rewrite Ek. unfold keysof. by rewrite !map_app. } { done. }
    exists t'. split; [exact HI'|]. rewrite Et', Ef, Ek. exists (elems mA ++ a), k, (b ++ elems mB). rewrite <- !app_assoc. done.
  - intros _. apply does_ret. cbn [fst snd].
    destruct (leaf_write_ok rl ri False Hrl1 T h t id kvs mA mB s1 s2 st kvs (cached (t_store T)) HI R) as (t' & HI' & Et' & _); [done|done|].
    exists t'. split; [exact HI'|]. simpl. by rewrite Et', Ef.
Qed.

Lemma get_mut_c_ok c f T h t : InvAt T h t ->
  call_ok (get_mut_c T c f) t (fun o l => one_written c f (flat t) o l) (panics c).
Proof.
  intros HI w. unfold get_mut_c. destruct (try_cache_does c T h t HI w) as (r & w1 & -> & Hr). rewrite obind_Ok.
  destruct r as [[id|]|].
  - refine (leaving_ok T h t _ (fun o l => one_written c f (flat t) o l) _ HI _ w1). eapply does_bind; [by eapply write_does|]. intros [o s] (t' & HI' & Ho). apply does_ret. by exists h, t'.
  - destruct (descend_does c T h t HI w1) as (r & w2 & -> & Hr2). rewrite obind_Ok. destruct r as [id|].
    + pose proof (inv_cache _ _ _ _ _ _ (Some id) HI) as HI'.
      change (mkStore _ _ _) with (cache_leaf (t_store T) id) in HI'.
      refine (leaving_ok _ h t _ (fun o l => one_written c f (flat t) o l) _ HI' _ w2). eapply does_bind; [by eapply write_does|]. intros [o s] (t' & HI2 & Ho). apply does_ret. by exists h, t'.
    + exists None, T, w2, h, t. done.
  - exists None, T, w1, h, t. done.
Qed.

Lemma insert_leaf_does c T h t id kvs mA mB s1 s2 st k v : InvAt T h t -> reach t id kvs mA mB s1 s2 st ->
  does (insert_leaf_c (t_store T) id c k v) (fun x => exists M L kvs', inners x.2 = inners (t_store T) /\
    length kvs' = length kvs + (match up_val x.1 with Some _ => 0 | None => 1 end) /\
    leaf_res id kvs' x.1 M L (length (leaves (t_store T))) /\ lrep (leaves x.2) (s1 ++ L ++ s2) /\
    one_inserted c k v kvs (up_val x.1) kvs') (panics c).
Proof.
  intros HI R. pose proof (reach_seq _ _ _ _ _ _ _ _ R) as (Es & _ & _).
  destruct (leaf_of_get T h t id HI) as (s1' & kvs' & s2' & Es' & Hz & El); [by exists s1, kvs, s2|].
  pose proof (inv_leaf _ _ _ _ _ _ _ _ _ _ HI Es) as El2. unfold get_leaf in El. rewrite El2 in El.
  assert (length kvs <= 64) as Hz2 by (injection El as E _ _ _ _; lia). clear Hz El s1' kvs' s2' Es'.
  pose proof (inv_lrep _ _ _ _ _ _ HI) as Hlr. rewrite Es in Hlr.
  unfold insert_leaf_c. eapply does_lift_bind; [unfold get_leaf; by rewrite El2|].
  eapply does_bind; [by apply locate_slot_does|]. intros r Hr.
  assert (exists kvs' o, match r with
    | ROk i => exists a k' v' b, kvs = a ++ (k', v') :: b /\ i = length a /\ kvs' = a ++ (k', v) :: b /\ o = Some v'
    | RErr i => exists a b, kvs = a ++ b /\ i = length a /\ kvs' = a ++ (k, v) :: b /\ o = None
    end /\ length kvs' = length kvs + (match o with Some _ => 0 | None => 1 end) /\ one_inserted c k v kvs o kvs') as (kvs' & o & H1 & H2 & H3).
  { destruct r as [i|i]; cbn [slot_in] in Hr.
    - destruct Hr as (a & k' & v' & b & -> & -> & He). exists (a ++ (k', v) :: b), (Some v').
      split; [by exists a, k', v', b|]. split; [rewrite !app_length; simpl; lia|]. exists a, k', b. done.
    - destruct Hr as (a & b & -> & ->). exists (a ++ (k, v) :: b), None.
      split; [by exists a, b|]. split; [rewrite !app_length; simpl; lia|]. by exists a, b. }
  destruct (insert_leaf_at_ok (t_store T) s1 id kvs s2 k v r Hlr Hz2 kvs' o H1) as (r' & s' & M & L & E1 & E2 & <- & E4 & E5).
  eapply does_lift; [exact E1|]. exists M, L, kvs'. done.
Qed.

Lemma one_inserted_mid c k v (a l : list (K * V)) o l' b : one_inserted c k v l o l' ->
  one_inserted c k v (a ++ l ++ b) o (a ++ l' ++ b).
Proof.
  destruct o; simpl.
  - intros (x & k' & y & -> & E & ->). exists (a ++ x), k', (y ++ b). rewrite <- !app_assoc. done.
  - intros (x & y & -> & ->). exists (a ++ x), (y ++ b). rewrite <- !app_assoc. done.
Qed.

Lemma insert_c_ok c k v T h t : InvAt T h t -> (N.of_nat (t_len T) < 2 ^ 64)%N ->
  call_ok (insert_c T c k v) t (fun o l => one_inserted c k v (flat t) o l) (panics c).
Proof.
  intros HI Hlen. unfold insert_c. apply (leaving_ok T h t); [done|].
  assert (h <= MAX_DEPTH) as Hh.
  { pose proof (inv_len _ _ _ _ _ _ HI) as E. rewrite E in Hlen. eapply height_bound; [apply HI|done]. }
  assert (does (descend_insert_c (t_store T) (t_root T) c k v) (fun x => exists o T' h' t',
    insert_top T x.1 x.2 = Ok (o, T') /\ InvAt T' h' t' /\ one_inserted c k v (flat t) o (flat t')) (panics c)) as H.
  { assert (forall id kvs mA mB s1 s2 st, reach t id kvs mA mB s1 s2 st ->
      does (do! '(r, s) := insert_leaf_c (t_store T) id c k v in clift (insert_ascend st s r)) (fun x => exists o T' h' t',
        insert_top T x.1 x.2 = Ok (o, T') /\ InvAt T' h' t' /\ one_inserted c k v (flat t) o (flat t')) (panics c)) as Hgo.
    { intros id kvs mA mB s1 s2 st R. eapply does_bind; [by eapply insert_leaf_does|].
      intros [r s'] (M & L & kvs' & E1 & E2 & E3 & E4 & E5). cbn [fst snd] in *.
      destruct (insert_core rl ri False Hrl2 Hri T h t id kvs mA mB s1 s2 st s' r M L kvs' HI Hlen R E1 E2 E3 E4)
        as (rf & sf & T' & h' & t' & Easc & Etop & HI' & Ef' & _).
      { by intros ?%HF. }
      eapply does_lift; [exact Easc|]. exists (up_val r), T', h', t'. split; [done|]. split; [done|].
      rewrite Ef', <- elems_trav, (reach_trav _ _ _ _ _ _ _ _ R), !elems_app, elems_emark. by apply one_inserted_mid. }
    rewrite (inv_root _ _ _ _ _ _ HI). unfold descend_insert_c. destruct t as [lid lkvs|nid' ks ch] eqn:Et; cbn [nid].
    - specialize (Hgo lid lkvs [] [] [] [] [] (reach_leaf _ _)). intros w. destruct (Hgo w) as (r & w' & E & Hr).
      unfold cbind in E. destruct (insert_leaf_c (t_store T) lid c k v w) as [[[[r1 s1]|] w1]| | | |] eqn:Ei; try done.
      + rewrite obind_Ok in E. unfold clift in E. cbn [insert_ascend] in E. rewrite obind_Ok in E. injection E as <- <-.
        exists (Some (r1, s1)), w1. done.
      + rewrite obind_Ok in E. injection E as <- <-. by exists None, w1.
    - eapply does_bind.
      { eapply (insert_descend_does c (t_store T) h (TNode nid' ks ch)); [apply HI|apply HI|by apply (fuel_inv rl ri False _ _ _ HI)|done|simpl; lia]. }
      intros [st lid] (kvs & mA & mB & s1 & s2 & st' & R & E). cbn [fst snd] in *. rewrite app_nil_r in E. subst st'.
      by eapply Hgo. }
  eapply does_bind; [exact H|]. intros [r s] (o & T' & h' & t' & E & HI' & Ho). eapply does_lift; [exact E|]. by exists h', t'.
Qed.

Lemma remove_c_ok c T h t : 1 <= ri -> InvAt T h t -> (N.of_nat (t_len T) < 2 ^ 64)%N ->
  (aug_needs_drop (K:=K) (V:=V) (A:=A) = false \/ h <= 1) ->
  call_ok (remove_c T c) t (fun o l => one_removed c (flat t) o l) (panics c).
Proof.
  intros Hri1 HI Hlen Hdrop. unfold remove_c. apply (leaving_ok T h t); [done|].
  assert (h <= MAX_DEPTH) as Hh.
  { pose proof (inv_len _ _ _ _ _ _ HI) as E. rewrite E in Hlen. eapply height_bound; [apply HI|done]. }
  eapply does_bind.
  { rewrite (inv_root _ _ _ _ _ _ HI). eapply (key_to_ref_does c (t_store T) h t);
      [|apply HI|apply HI|by apply (fuel_inv rl ri False _ _ _ HI)|simpl; lia].
    intros s1 id kvs s2 Es. destruct (leaf_of_get T h t id HI) as (s1' & kvs' & s2' & Es' & Hz & El); [by exists s1, kvs, s2|].
    unfold get_leaf in El. pose proof (inv_leaf _ _ _ _ _ _ _ _ _ _ HI Es) as El2. rewrite El2 in El.
    split; [injection El as E _ _ _ _; lia|]. eexists _, _. exact El2. }
  intros [[[stack id] off]|].
  - intros (kvs & mA & mB & s1 & s2 & st & k & v & R & -> & Hk & He). rewrite app_nil_r.
    destruct (remove_by_ref_ok rl ri False Hrl2 (conj Hri1 Hri) T h t id kvs mA mB s1 s2 st off (k, v) HI R)
      as (T' & h' & t' & E & HI' & Hh' & Ef' & _); [done|done|].
    eapply does_lift_bind; [exact E|]. apply does_ret. exists h', t'. split; [done|].
    destruct (split_at_elem _ _ _ Hk) as (a & b & -> & <-). rewrite delete_middle' in Ef' by done.
    exists (elems mA ++ a), k, (b ++ elems mB). rewrite Ef', <- !app_assoc.
    rewrite <- elems_trav, (reach_trav _ _ _ _ _ _ _ _ R), !elems_app, elems_emark, <- !app_assoc. done.
  - intros _. apply does_ret. exists h, t. done.
Qed.
(** ** Cursors *)
Lemma locate_leaf_does c T h t : InvAt T h t -> does (locate_leaf_c T c) (leaf_of t) (panics c).
Proof.
  intros HI. unfold locate_leaf_c. eapply does_bind; [by eapply try_cache_does|]. intros [id|] Hid.
  - by apply does_ret.
  - by eapply descend_does.
Qed.

(** The leaf of a cursor call. *)
Definition at_leaf (t : tr) (x : nat * leaf K V) : Prop := exists s1 kvs s2, leaf_seq t = s1 ++ (x.1, kvs) :: s2 /\
  length kvs <= 64 /\ x.2 = mk_leaf kvs (last_id None s1) (hd_id s2 None).

Lemma cursor_locate_does c T h t x : InvAt T h t -> does (cursor_locate_leaf_c T c x) (at_leaf t) (panics c).
Proof.
  intros HI. assert (forall id l, get_leaf (t_store T) id = Ok l -> leaf_of t id -> at_leaf t (id, l)) as Hat.
  { intros id l El Hl. destruct (leaf_of_get T h t id HI Hl) as (s1 & kvs & s2 & Es & Hz & El').
    exists s1, kvs, s2. split; [done|]. split; [done|]. cbn [snd]. congruence. }
  unfold cursor_locate_leaf_c.
  apply (does_bind _ _ (fun o => match o with Some l => at_leaf t (c_leaf x, l) | None => True end)).
  - unfold try_get_leaf. destruct (leaves (t_store T) !! c_leaf x) as [[l|]|] eqn:El; [|by apply does_ret..].
    eapply does_bind; [by eapply in_range_does|]. intros [] _; apply does_ret; [|done].
    apply Hat; [unfold get_leaf; by rewrite El|]. by eapply live_leaf_of.
  - intros [l|] Hl; [by apply does_ret|]. eapply does_bind; [by eapply locate_leaf_does|]. intros id Hid.
    destruct (leaf_of_get T h t id HI Hid) as (s1 & kvs & s2 & Es & Hz & El).
    eapply does_lift_bind; [exact El|]. apply does_ret. by apply Hat.
Qed.

Lemma hint_does c (x : cursor K) (kvs : list (K * V)) pv nx :
  does (cursor_hint_hits_c (mk_leaf kvs pv nx) c x) (fun o => match o with
    | Some v => exists k, kvs !! c_off x = Some (k, v) /\ says_eq c k
    | None => True
    end) (panics c).
Proof.
  unfold cursor_hint_hits_c, leaf_try_data_at. cbn [l_size mk_leaf]. case_decide as Hd.
  - eapply does_lift_bind; [done|]. by apply does_ret.
  - destruct (lookup_lt_is_Some_2 kvs (c_off x)) as [[k v] E]; [lia|].
    change (mkLeaf _ _ _ _ _) with (mk_leaf kvs pv nx).
    eapply does_lift_bind; [by rewrite (leaf_data_at_mk _ _ _ _ _ E), obind_Ok|].
    eapply does_bind; [apply does_ask|]. intros [] Ha; apply does_ret; [|done..]. exists k. auto.
Qed.

Lemma next_does c (x : cursor K) T h t : InvAt T h t -> does (cursor_next_c T c x) (on_entry (flat t)) (panics c).
Proof.
  intros HI. unfold cursor_next_c. eapply does_bind; [by eapply cursor_locate_does|].
  intros [id l] (s1 & kvs & s2 & Es & Hz & El). cbn [fst snd] in *. subst l.
  pose proof (seg_next rl ri Hrl1 _ _ _ _ _ _ _ HI Es) as Hn.
  eapply does_bind; [apply hint_does|]. intros o _. apply (does_bind _ _ (fun _ => True)).
  { destruct o; [by apply does_ret|]. eapply does_bind; [by apply locate_value_does|]. intros [i o] _. by apply does_ret. }
  intros off _. cbn [l_size l_next mk_leaf]. case_decide as Hd.
  - destruct (lookup_lt_is_Some_2 kvs off) as [[k v] E]; [done|].
    change (mkLeaf _ _ _ _ _) with (mk_leaf kvs (last_id None s1) (hd_id s2 None)).
    eapply does_lift; [by rewrite (leaf_data_at_mk _ _ _ _ _ E), obind_Ok|]. simpl. eapply in_flat; [exact Es|].
    by eapply elem_of_list_lookup_2.
  - destruct (hd_id s2 None) as [i|]; [|by eapply does_lift].
    destruct Hn as ([k v] & kvs' & pv & nx & El' & Hin). eapply does_lift.
    { unfold get_leaf. rewrite El', obind_Ok. by rewrite (leaf_data_at_mk _ _ _ _ (k, v)) by done. }
    done.
Qed.

Lemma prev_does c (x : cursor K) T h t : InvAt T h t -> does (cursor_prev_c T c x) (on_entry (flat t)) (panics c).
Proof.
  intros HI. unfold cursor_prev_c. eapply does_bind; [by eapply cursor_locate_does|].
  intros [id l] (s1 & kvs & s2 & Es & Hz & El). cbn [fst snd] in *. subst l.
  pose proof (seg_prev rl ri Hrl1 _ _ _ _ _ _ _ HI Es) as Hn.
  eapply does_bind; [apply hint_does|]. intros o Ho. apply (does_bind _ _ (fun i => i <= length kvs)).
  { destruct o as [v|].
    - destruct Ho as (k & E & _). apply lookup_lt_Some in E. apply does_ret. lia.
    - eapply does_bind; [by apply locate_slot_does|]. intros [i|i] Hr; cbn [slot_in] in Hr; apply does_ret.
      + destruct Hr as (a & k & v & b & -> & -> & _). rewrite app_length. lia.
      + destruct Hr as (a & b & -> & ->). rewrite app_length. lia. }
  intros off Hoff. cbn [l_prev mk_leaf]. case_decide as Hd.
  - destruct (lookup_lt_is_Some_2 kvs (off - 1)) as [[k v] E]; [lia|].
    change (mkLeaf _ _ _ _ _) with (mk_leaf kvs (last_id None s1) (hd_id s2 None)).
    eapply does_lift; [by rewrite obind_Ok, (leaf_data_at_mk _ _ _ _ _ E), obind_Ok|]. simpl. eapply in_flat; [exact Es|].
    by eapply elem_of_list_lookup_2.
  - destruct (last_id None s1) as [i|]; [|by eapply does_lift].
    destruct Hn as ([k v] & kvs' & pv & nx & El' & Hin). eapply does_lift.
    { unfold get_leaf. rewrite El', obind_Ok. cbn [l_size mk_leaf]. rewrite app_length, Nat.add_1_r. cbn [usize_pred].
      rewrite !obind_Ok. by rewrite (leaf_data_at_mk _ _ _ _ (k, v)) by (by apply lookup_middle'). }
    done.
Qed.

Lemma value_does c (x : cursor K) T h t : InvAt T h t -> does (cursor_value_c T c x) (val_of c (flat t)) (panics c).
Proof.
  intros HI. unfold cursor_value_c. eapply does_bind; [by eapply cursor_locate_does|].
  intros [id l] (s1 & kvs & s2 & Es & Hz & El). cbn [fst snd] in *. subst l.
  eapply does_bind; [apply hint_does|]. intros [v|] Ho.
  - apply does_ret. destruct Ho as (k & E & He). eapply val_of_flat; [exact Es|]. exists k. split; [by eapply elem_of_list_lookup_2|done].
  - eapply does_bind; [by apply locate_value_does|]. intros [i o] [_ Hv]. apply does_ret. by eapply val_of_flat.
Qed.

Lemma get_cursor_does c k T h t : InvAt T h t ->
  does (get_cursor_c T c k) (fun x => c_key x.1 = k /\ val_of c (flat t) x.2) (panics c).
Proof.
  intros HI. unfold get_cursor_c. eapply does_bind; [by eapply descend_does|]. intros id Hid.
  destruct (leaf_of_get T h t id HI Hid) as (s1 & kvs & s2 & Es & Hz & El). eapply does_lift_bind; [exact El|].
  eapply does_bind; [by apply locate_value_does|]. intros [i o] [_ Hv]. apply does_ret. split; [done|].
  by eapply val_of_flat.
Qed.

(** ** Steps and programs *)
Lemma write_step {X} (f : X -> vres K V) (m : call (A:=A) X) T h t (Q : X -> list (K * V) -> Prop) c w : InvAt T h t ->
  call_ok m t Q (panics c) -> exists r T' w' h' t', write_call f m w = Ok (r, T', w') /\ InvAt T' h' t' /\
    or_threw c (flat t) r (flat t') (exists x, r = f x /\ Q x (flat t')).
Proof.
  intros HI Hm. destruct (Hm w) as (r & T' & w' & h' & t' & E & HI' & Hr). unfold write_call. rewrite E, obind_Ok.
  eexists _, T', w', h', t'. split; [done|]. split; [done|]. destruct r as [x|]; [left; by exists x|right].
  destruct Hr as [Hp ->]. done.
Qed.
Lemma read_step {X} (f : X -> vres K V) (m : comp W X) T h t (Q : X -> Prop) c w : InvAt T h t ->
  does m Q (panics c) -> exists r T' w' h' t', read_call T f m w = Ok (r, T', w') /\ InvAt T' h' t' /\
    or_threw c (flat t) r (flat t') (exists x, r = f x /\ Q x /\ flat t' = flat t).
Proof.
  intros HI Hm. destruct (Hm w) as (r & w' & E & Hr). unfold read_call. rewrite E, obind_Ok.
  eexists _, T, w', h, t. split; [done|]. split; [done|]. destruct r as [x|]; [left; by exists x|by right].
Qed.

Lemma vstep_ok T h t (o : vop W K V) w : InvAt T h t -> (is_vremove o -> 1 <= ri) ->
  (is_vremove o -> aug_needs_drop (K:=K) (V:=V) (A:=A) = false \/ length (flat t) < 272) ->
  (N.of_nat (length (flat t)) < 2 ^ 64)%N ->
  exists r T' w' h' t', vstep T o w = Ok (r, T', w') /\ InvAt T' h' t' /\ vstep_any (flat t) o r (flat t').
Proof.
  intros HI Hrm Hd0 Hlen. rewrite <- (inv_len _ _ _ _ _ _ HI) in Hlen.
  destruct o as [c k v|c|c|c f|c x|c x|c x|c k| | | | | | | ]; cbn [vstep vstep_any].
  - eapply write_step; [done|]. by eapply insert_c_ok.
  - eapply write_step; [done|]. eapply remove_c_ok; [by apply Hrm|done|done|]. by eapply any_height, Hd0.
  - refine (write_step VrVal _ T h t (fun o l => val_of c (flat t) o /\ l = flat t) c w HI _). by eapply get_c_ok.
  - eapply write_step; [done|]. by eapply get_mut_c_ok.
  - eapply read_step; [done|]. by eapply next_does.
  - eapply read_step; [done|]. by eapply prev_does.
  - eapply read_step; [done|]. by eapply value_does.
  - destruct (read_step (fun x => VrCursor x.1 x.2) (get_cursor_c T c k) T h t _ c w HI (get_cursor_does c k T h t HI))
      as (r & T' & w' & h' & t' & E & HI' & H). exists r, T', w', h', t'. split; [exact E|]. split; [done|].
    destruct H as [([x v] & -> & [H1 H2] & H3)|H]; [left|by right]. exists x, v. done.
  - unfold plain_call. rewrite (first_ok rl ri False Hrl1 T h t HI), obind_Ok. by eexists _, T, w, h, t.
  - unfold plain_call. rewrite (last_ok rl ri False Hrl1 T h t HI), obind_Ok. by eexists _, T, w, h, t.
  - eexists _, T, w, h, t. by rewrite (inv_len _ _ _ _ _ _ HI).
  - unfold plain_call. rewrite (entries_ok rl ri False Hrl1 T h t HI), obind_Ok. by eexists _, T, w, h, t.
  - unfold plain_call. rewrite (entries_rev_ok rl ri False Hrl1 T h t HI), obind_Ok. by eexists _, T, w, h, t.
  - rewrite (clear_ok rl ri False Hrl1 T h t HI), obind_Ok. eexists _, _, w, 0, _. split; [done|]. split; [by apply new_inv|done].
  - rewrite (tree_clone_ok rl ri False Hrl1 T h t HI), obind_Ok. by eexists _, T, w, h, t.
Qed.

Lemma vstep_any_length l (o : vop W K V) r l' ops : vstep_any l o r l' ->
  length l' + vinserts ops <= length l + vinserts (o :: ops).
Proof.
  clear. intros H. destruct o as [c k v|c|c|c f|c x|c x|c x|c k| | | | | | | ]; cbn [vstep_any vinserts] in *;
    unfold or_threw in H.
  - destruct H as [([x|] & _ & H)|(_ & _ & ->)]; [| |lia]; simpl in H;
      [destruct H as (a & k' & b & -> & _ & ->)|destruct H as (a & b & -> & ->)]; rewrite !app_length; simpl; lia.
  - destruct H as [([x|] & _ & H)|(_ & _ & ->)]; [| |lia]; simpl in H;
      [destruct H as (a & k' & b & -> & _ & ->)|subst]; rewrite ?app_length; simpl; lia.
  - destruct H as [(? & _ & _ & ->)|(_ & _ & ->)]; lia.
  - destruct H as [([x|] & _ & H)|(_ & _ & ->)]; [| |lia]; simpl in H;
      [destruct H as (a & k' & b & -> & _ & ->)|subst]; rewrite ?app_length; simpl; lia.
  - destruct H as [(? & _ & _ & ->)|(_ & _ & ->)]; lia.
  - destruct H as [(? & _ & _ & ->)|(_ & _ & ->)]; lia.
  - destruct H as [(? & _ & _ & ->)|(_ & _ & ->)]; lia.
  - destruct H as [(? & ? & _ & _ & _ & ->)|(_ & _ & ->)]; lia.
  - destruct H as [_ ->]. lia.
  - destruct H as [_ ->]. lia.
  - destruct H as [_ ->]. lia.
  - destruct H as [_ ->]. lia.
  - destruct H as [_ ->]. lia.
  - destruct H as [_ ->]. simpl. lia.
  - destruct H as [_ ->]. lia.
Qed.

Lemma vrun_ok T h t (ops : list (vop W K V)) w : InvAt T h t -> (Exists is_vremove ops -> 1 <= ri) ->
  (Exists is_vremove ops -> aug_needs_drop (K:=K) (V:=V) (A:=A) = false \/ length (flat t) + vinserts ops < 272) ->
  (N.of_nat (length (flat t) + vinserts ops) < 2 ^ 64)%N ->
  exists rs T' w' h' t', vrun T ops w = Ok (rs, T', w') /\ InvAt T' h' t' /\ vruns (flat t) ops rs (flat t').
Proof.
  revert T h t w. induction ops as [|o ops IH]; intros T h t w HI Hr Hd Hn; cbn [vrun].
  { eexists _, T, w, h, t. split; [done|]. split; [done|]. constructor. }
  assert (vinserts ops <= vinserts (o :: ops)) as Hle by (destruct o; simpl; lia).
  destruct (vstep_ok T h t o w HI) as (r & T1 & w1 & h1 & t1 & -> & HI1 & H1).
  { intros Ho. apply Hr. by left. }
  { intros Ho. destruct Hd as [Hd|Hd]; [by left|by left|right; lia]. }
  { lia. }
  rewrite obind_Ok. pose proof (vstep_any_length _ _ _ _ ops H1) as Hl.
  destruct (IH T1 h1 t1 w1 HI1) as (rs & T' & w' & h' & t' & -> & HI' & H2).
  { intros Ho. apply Hr. by right. }
  { intros Ho. destruct Hd as [Hd|Hd]; [by right|by left|right; lia]. }
  { lia. }
  rewrite obind_Ok. eexists _, T', w', h', t'. split; [done|]. split; [done|]. by econstructor.
Qed.
End Inv.

(** ** Bulk loading *)
Lemma dedup_does (c : code2 W K) (l : list (K * V)) cur :
  does (dedup_keep_last_c c cur l) (fun r => thinned (match cur with Some x => x :: l | None => l end) r) (panics2 c).
Proof.
  revert cur. induction l as [|x l IH]; intros cur; cbn [dedup_keep_last_c].
  - apply does_ret. by destruct cur.
  - destruct cur as [y|]; [|apply (IH (Some x))].
    apply (does_bind _ _ (fun _ => True)).
    { intros w. destruct (c w y.1 x.1) as [[a|] w'] eqn:E; eexists _, _; (split; [done|]); [done|]. by exists w, y.1, x.1, w'. }
    assert (forall r, thinned (x :: l) r -> r <> []) as Hne.
    { intros r [_ Hl] ->. rewrite last_cons in Hl. by destruct (list.last l). }
    assert (does (do! r := dedup_keep_last_c c (Some x) l in cret (y :: r)) (fun r => thinned (y :: x :: l) r) (panics2 c)) as Hk.
    { eapply does_bind; [apply (IH (Some x))|]. intros r Hr. apply does_ret. pose proof (Hne r Hr). destruct Hr as [H1 H2].
      split; [by constructor|]. rewrite (last_cons y r), H2, (last_cons y (x :: l)). done. }
    intros [] _; [|exact Hk..].
    eapply does_weaken; [apply (IH (Some x))|]. intros r Hr. destruct Hr as [H1 H2].
    split; [by constructor|]. by rewrite H2.
Qed.

Lemma bulk_load_does (c : code2 W K) (data : list (K * V)) :
  does (bulk_load_c (A:=A) c data) (fun T => exists l, thinned data l /\
    forall ri, ri <= 1 -> (ri = 1 -> orphan_free (length l)) -> exists h t, InvAt 1 ri False T h t /\ flat t = l) (panics2 c).
Proof.
  destruct data as [|x data]; cbn [bulk_load_c].
  - apply does_ret. exists []. split; [done|]. intros ri Hri _. exists 0, (TLeaf 0 []). split; [|done]. apply new_inv; lia.
  - eapply does_bind; [apply (dedup_does c _ None)|]. intros l Hl.
    assert (l <> []) as Hn.
    { intros ->. destruct Hl as [_ Hl]. rewrite last_cons in Hl. by destruct (list.last data). }
    assert (forall ri, ri <= 1 -> (ri = 1 -> orphan_free (length l)) -> exists (T : tree) h t,
      (let! '(s, nodes, count) := bulk_leaves (S (length l)) store_default l None [] 0 in
       let! '(s, root) := build_inner_layer (length nodes) s nodes in
       new_from_parts s root count) = Ok T /\ InvAt 1 ri False T h t /\ flat t = l) as Hgo.
    { intros ri Hri Ho.
      destruct (bulk_items_ok (A:=A) ri False Hri l) as (s & nodes & n & s' & root & T & h & t & E1 & E2 & E3 & HI & Hf & _).
      { by intros ?%HF. } { done. }
      { intros Er. destruct (Ho Er) as [E0|E0]; [|done]. by destruct l. }
      exists T, h, t. split; [|done]. rewrite E1, obind_Ok, E2, obind_Ok. done. }
    destruct (Hgo 0) as (T & h & t & E & _ & _); [lia|done|].
    eapply does_lift; [exact E|]. exists l. split; [done|]. intros ri Hri Ho.
    destruct (Hgo ri Hri Ho) as (T' & h' & t' & E' & HI' & Hf'). rewrite E in E'. injection E' as <-. by exists h', t'.
Qed.

Lemma vremove_dec (ops : list (vop W K V)) : Exists is_vremove ops \/ ~ Exists is_vremove ops.
Proof.
  clear. induction ops as [|o ops IH]; [right; by intros ?%Exists_nil|].
  rewrite Exists_cons. destruct o; simpl; tauto.
Qed.

(** A program on a tree just made. *)
Lemma program_ok (T : tree) rl l (ops : list (vop W K V)) w : 1 <= rl <= 16 ->
  (forall ri, ri <= rl -> (1 <= ri -> orphan_free (length l)) -> exists h t, InvAt rl ri False T h t /\ flat t = l) ->
  vlegal (A:=A) (length l) ops ->
  exists rs T' w' l', vrun T ops w = Ok (rs, T', w') /\ vruns l ops rs l' /\
    entries T' = Ok l' /\ t_len T' = length l' /\ tree_drop T' = Ok l'.
Proof.
  intros Hrl HT [H1 H2 H3].
  assert (exists ri, ri <= rl /\ (1 <= ri -> orphan_free (length l)) /\ (Exists is_vremove ops -> 1 <= ri)) as (ri & L1 & L2 & L3).
  { destruct (vremove_dec ops) as [He|He]; [exists 1|exists 0]; (split_and!; [lia|first [lia|auto]|done || lia]). }
  destruct (HT ri L1 L2) as (h & t & HI & <-).
  destruct (vrun_ok rl ri ltac:(lia) ltac:(lia) ltac:(lia) T h t ops w HI L3 H3 H1) as (rs & T' & w' & h' & t' & E & HI' & Hv).
  exists rs, T', w', (flat t'). split; [done|]. split; [done|].
  split; [eapply entries_ok; [|done]; lia|]. split; [apply HI'|]. eapply tree_drop_ok; [|done]; lia.
Qed.
End VolatileProof.

(** No comparison of keys is known: any will do. *)
Lemma new_program {W K V A} {AO : AugOps K V A} {PF : Profile} (ops : list (vop W K V)) w : vlegal (A:=A) 0 ops ->
  exists rs T w' l, vrun tree_new ops w = Ok (rs, T, w') /\ vruns [] ops rs l /\
    entries T = Ok l /\ t_len T = length l /\ tree_drop T = Ok l.
Proof.
  intros Hl. set (KO := (fun _ _ => Eq) : KeyOps K).
  apply (program_ok (KO:=KO) (OM:=om_false) (OI:=ord_if_false K KO) (fun x => x) tree_new 16 []); [lia| |done].
  intros ri Hri _. exists 0, (TLeaf 0 []). split; [|done]. apply new_inv; lia.
Qed.
Lemma bulk_program {W K V A} {AO : AugOps K V A} {PF : Profile} (c : code2 W K) (data : list (K * V)) w :
  exists r w1, bulk_load_c c data w = Ok (r, w1) /\
  match r with
  | None => panics2 c
  | Some T0 => exists l0, entries T0 = Ok l0 /\ thinned data l0 /\
      forall ops : list (vop W K V), vlegal (A:=A) (length l0) ops ->
      exists rs T w' l, vrun T0 ops w1 = Ok (rs, T, w') /\ vruns l0 ops rs l /\
        entries T = Ok l /\ t_len T = length l /\ tree_drop T = Ok l
  end.
Proof.
  set (KO := (fun _ _ => Eq) : KeyOps K).
  destruct (bulk_load_does (KO:=KO) (OM:=om_false) (OI:=ord_if_false K KO) (A:=A) (fun x => x) c data w) as (r & w1 & E & Hr).
  exists r, w1. split; [exact E|]. destruct r as [T0|]; [|done]. destruct Hr as (l0 & Hth & HT). exists l0.
  split; [|split; [done|]].
  - destruct (HT 0) as (h & t & HI & <-); [lia|done|]. refine (entries_ok (KO:=KO) (OM:=om_false) 1 0 False _ T0 h t HI). lia.
  - intros ops Hops. apply (program_ok (KO:=KO) (OM:=om_false) (OI:=ord_if_false K KO) (fun x => x) T0 1 l0); [lia| |done].
    intros ri Hri Ho. apply HT; [done|]. intros ->. auto.
Qed.
