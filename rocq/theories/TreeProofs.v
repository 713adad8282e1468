(** Lemmas about trees: bounds, content, routing, lookups. *)
From Verif Require Import Util PageModel PageSpec PageProofs PageOps TxnModel TreeSpec PropPage.
Local Open Scope N_scope.

(** ** Order *)
Lemma kle_refl k : kle k k.
Proof. right; auto. Qed.
Lemma kle_trans a b c : kle a b -> kle b c -> kle a c.
Proof. intros [H| ->] [H'| <-]; unfold kle; auto. left. eapply klt_trans; eauto. Qed.
Lemma kle_klt_trans a b c : kle a b -> klt b c -> klt a c.
Proof. intros [H| ->] H'; auto. eapply klt_trans; eauto. Qed.
Lemma klt_kle_trans a b c : klt a b -> kle b c -> klt a c.
Proof. intros H [H'| <-]; auto. eapply klt_trans; eauto. Qed.
Lemma klt_kle a b : klt a b -> kle a b.
Proof. left; auto. Qed.
Lemma kle_not_klt a b : kle a b -> ~ klt b a.
Proof. intros [H| ->] H'; [eapply klt_asym; eauto|eapply klt_irrefl; eauto]. Qed.
Lemma klt_neq a b : klt a b -> a <> b.
Proof. intros H ->. eapply klt_irrefl; eauto. Qed.
Lemma not_klt_kle a b : ~ klt a b -> kle b a.
Proof. intro H. destruct (klt_total a b) as [?|[->|?]]; [tauto|right; auto|left; auto]. Qed.
Lemma above_trans lo a b : above lo a -> kle a b -> above lo b.
Proof. destruct lo; cbn; auto. apply kle_trans. Qed.
Lemma below_trans hi a b : below hi b -> kle a b -> below hi a.
Proof. destruct hi; cbn; auto. intros. eapply kle_klt_trans; eauto. Qed.

(** ** Sorted lists *)
Lemma sorted_app (l1 l2 : list key) :
  ksorted (l1 ++ l2) <-> ksorted l1 /\ ksorted l2 /\ (forall x y, In x l1 -> In y l2 -> klt x y).
Proof.
  unfold ksorted. induction l1 as [|a l IH]; cbn [app].
  - split; [intro H|tauto]. split; [constructor|]. split; [exact H|]. intros x y [].
  - split.
    + intro H. inversion H as [|? ? H2 H3]; subst. apply IH in H2. destruct H2 as (A & B & C).
      rewrite Forall_app in H3. destruct H3 as [F1 F2]. splits; auto.
      * constructor; auto.
      * rewrite Forall_forall in F2. intros x y [<-|Hx] Hy; auto.
    + intros (A & B & C). inversion A as [|? ? H2 H3]; subst. constructor.
      * apply IH. splits; auto. intros; apply C; cbn; auto.
      * rewrite Forall_app. split; auto. rewrite Forall_forall. intros; apply C; cbn; auto.
Qed.
Lemma sorted_cons_inv a l : ksorted (a :: l) -> ksorted l /\ Forall (klt a) l.
Proof. intro H. inversion H; auto. Qed.
Lemma sorted_NoDup l : ksorted l -> NoDup l.
Proof.
  induction 1; constructor; auto. intro Hi. rewrite Forall_forall in H0. eapply klt_irrefl; eauto.
Qed.

(** ** kids *)
Definition nlo (pre : list (key * N)) (lo : option key) (k : key) : option key :=
  match pre with [] => lo | _ => Some k end.
Definition nhi (post : list (key * N)) (hi : option key) : option key :=
  match post with [] => hi | (k, _) :: _ => Some k end.

Lemma kids_cons2 T k c k' c' r lo hi : kids T ((k, c) :: (k', c') :: r) lo hi =
  (T c lo (Some k') /\ klt k k' /\ above lo k' /\ below hi k' /\ kids T ((k', c') :: r) (Some k') hi).
Proof. reflexivity. Qed.

Lemma kids_app T k2 c2 r2 : forall l1 lo hi, l1 <> [] ->
  (kids T (l1 ++ (k2, c2) :: r2) lo hi <->
   kids T l1 lo (Some k2) /\ kids T ((k2, c2) :: r2) (Some k2) hi /\ above lo k2 /\ below hi k2 /\
   Forall (fun e => klt (fst e) k2) l1).
Proof.
  induction l1 as [|[k c] l IH]; intros lo hi Hne; [congruence|].
  destruct l as [|[k' c'] l].
  - cbn [app]. rewrite kids_cons2. cbn [kids]. split.
    + intros (A & B & C & D & E). splits; auto.
    + intros (A & B & C & D & E). inversion E; subst. splits; auto.
  - change (((k, c) :: (k', c') :: l) ++ (k2, c2) :: r2) with ((k, c) :: (k', c') :: (l ++ (k2, c2) :: r2)).
    rewrite !kids_cons2.
    change ((k', c') :: l ++ (k2, c2) :: r2) with (((k', c') :: l) ++ (k2, c2) :: r2).
    specialize (IH (Some k') hi ltac:(discriminate)). rewrite IH. split.
    + intros (A & B & C & D & E & F & G & H & I).
      pose proof (Forall_inv I) as I0. cbn [fst] in I0. splits; auto.
      * eapply above_trans; eauto.
      * constructor; auto. cbn [fst]. eapply klt_trans; eauto.
    + intros ((A & B & C & D & E) & F & G & H & I). inversion I as [|? ? I1 I2]; subst.
      pose proof (Forall_inv I2) as I3. cbn [fst below] in *. splits; auto.
      * eapply below_trans; eauto. left; auto.
      * left; auto.
Qed.

Lemma kids_nonempty T es lo hi : kids T es lo hi -> es <> [].
Proof. destruct es; cbn; [tauto|discriminate]. Qed.

Lemma kids_mono (T T' : N -> option key -> option key -> Prop) : forall es lo hi, kids T es lo hi ->
  (forall k c l h, In (k, c) es -> T c l h -> T' c l h) -> kids T' es lo hi.
Proof.
  induction es as [|[k c] es IH]; intros lo hi H HT; [destruct H|].
  destruct es as [|[k' c'] es].
  - cbn [kids] in *. eapply HT; cbn; eauto.
  - rewrite kids_cons2 in *. destruct H as (A & B & C & D & E). splits; auto.
    + eapply HT; cbn; eauto.
    + apply IH; auto. intros; eapply HT; cbn; eauto.
Qed.

Lemma kids_tail_below T : forall rest k c lo hi, kids T ((k, c) :: rest) lo hi -> Forall (fun e => below hi (fst e)) rest.
Proof.
  induction rest as [|[k' c'] rest IH]; intros k c lo hi H; constructor; rewrite kids_cons2 in H.
  - cbn. tauto.
  - destruct H as (_ & _ & _ & _ & H). eapply IH; eauto.
Qed.

Lemma kids_sorted T : forall es lo hi, kids T es lo hi -> ksorted (map fst es).
Proof.
  induction es as [|[k c] es IH]; intros lo hi H; [constructor|].
  destruct es as [|[k' c'] es].
  - repeat constructor.
  - rewrite kids_cons2 in H. destruct H as (_ & B & _ & _ & E). specialize (IH _ _ E).
    cbn [map fst] in *. constructor; auto. constructor; auto.
    apply sorted_cons_inv in IH. destruct IH as [_ IH]. eapply Forall_impl; [|exact IH].
    intros a Ha. cbn beta in *. eapply klt_trans; eauto.
Qed.

Lemma kids_mid T pre k c post lo hi : kids T (pre ++ (k, c) :: post) lo hi -> T c (nlo pre lo k) (nhi post hi).
Proof.
  intro H.
  assert (G : kids T ((k, c) :: post) (nlo pre lo k) hi).
  { destruct pre as [|e pre]; [exact H|]. apply kids_app in H; [|discriminate]. cbn [nlo]. tauto. }
  destruct post as [|[k' c'] post].
  - exact G.
  - rewrite kids_cons2 in G. cbn [nhi]. tauto.
Qed.

Lemma kids_update (T T' : N -> option key -> option key -> Prop) pre k c post mid lo hi :
  kids T (pre ++ (k, c) :: post) lo hi ->
  (forall k' c' l h, In (k', c') (pre ++ post) -> T c' l h -> T' c' l h) ->
  kids T' ((k, c) :: mid) (nlo pre lo k) (nhi post hi) ->
  kids T' (pre ++ (k, c) :: mid ++ post) lo hi.
Proof.
  intros H HT HM.
  assert (G : kids T ((k, c) :: post) (nlo pre lo k) hi /\
              (pre <> [] -> kids T pre lo (Some k) /\ above lo k /\ below hi k /\ Forall (fun e => klt (fst e) k) pre)).
  { destruct pre as [|e pre]; [split; [exact H|congruence]|]. apply kids_app in H; [|discriminate]. cbn [nlo]. tauto. }
  destruct G as [G1 G2].
  assert (K : kids T' ((k, c) :: mid ++ post) (nlo pre lo k) hi).
  { destruct post as [|[k' c'] post].
    - rewrite app_nil_r. exact HM.
    - rewrite kids_cons2 in G1. destruct G1 as (A & B & C & D & E).
      change ((k, c) :: mid ++ (k', c') :: post) with (((k, c) :: mid) ++ (k', c') :: post).
      apply kids_app; [discriminate|]. cbn [nhi] in HM. splits; auto.
      + eapply kids_mono; [exact E|]. intros. eapply HT; [|eauto]. apply in_app_iff. right; eauto.
      + constructor; auto. apply kids_tail_below in HM. exact HM. }
  destruct pre as [|e pre]; [exact K|].
  destruct (G2 ltac:(discriminate)) as (P1 & P2 & P3 & P4).
  apply kids_app; [discriminate|]. splits; auto.
  eapply kids_mono; [exact P1|]. intros. eapply HT; [|eauto]. apply in_app_iff. left; eauto.
Qed.

(** ** Content of a tree *)
Lemma flat_map_ext_in {A B} (f g : A -> list B) l : (forall x, In x l -> f x = g x) -> flat_map f l = flat_map g l.
Proof. induction l; cbn; intro H; auto. rewrite H, IHl; auto. Qed.

Lemma kids_content (T : N -> option key -> option key -> Prop) (f : N -> list (key * bytes)) :
  (forall c lo hi, T c lo hi -> ksorted (map fst (f c)) /\ Forall (fun k => above lo k /\ below hi k) (map fst (f c))) ->
  forall es lo hi, kids T es lo hi ->
    ksorted (map fst (flat_map (fun e => f (snd e)) es)) /\
    Forall (fun k => above lo k /\ below hi k) (map fst (flat_map (fun e => f (snd e)) es)).
Proof.
  intro HT. induction es as [|[k c] es IH]; intros lo hi H; [destruct H|].
  destruct es as [|[k' c'] es].
  - cbn [kids] in H. cbn [flat_map snd]. rewrite app_nil_r. apply HT; auto.
  - rewrite kids_cons2 in H. destruct H as (A & B & C & D & E). apply HT in A. apply IH in E.
    destruct A as [A1 A2]. destruct E as [E1 E2].
    set (rest := flat_map (fun e => f (snd e)) ((k', c') :: es)) in *.
    change (flat_map (fun e => f (snd e)) ((k, c) :: (k', c') :: es)) with (f c ++ rest).
    rewrite map_app. rewrite Forall_forall in A2, E2. split.
    + apply sorted_app. splits; auto. intros x y Hx Hy. apply A2 in Hx. apply E2 in Hy. cbn in *.
      eapply klt_kle_trans; [apply Hx|apply Hy].
    + apply Forall_app. rewrite !Forall_forall. split; intros x Hx.
      * apply A2 in Hx. split; [tauto|]. cbn in Hx. eapply below_trans; [exact D|left; tauto].
      * apply E2 in Hx. split; [|tauto]. cbn in Hx. eapply above_trans; [exact C|tauto].
Qed.

Lemma leaf_entries_keys p : map fst (leaf_entries p) = page_keys true p.
Proof. unfold leaf_entries, page_keys. rewrite map_map. reflexivity. Qed.
Lemma branch_entries_keys p : map fst (branch_entries p) = page_keys false p.
Proof. unfold branch_entries, page_keys. rewrite map_map. reflexivity. Qed.

(** lower bound at which the children start *)
Definition start (b : bool) (V : view) (pg : N) (lo : option key) : option key :=
  if b then first_sep (V pg) else lo.

Lemma tree_pgno b V h pg lo hi : tree b V h pg lo hi -> pg_pgno (V pg) = pg.
Proof. destruct h; cbn; tauto. Qed.

Lemma tree_content b V : forall h pg lo hi, tree b V h pg lo hi ->
  ksorted (map fst (tree_kvs V h pg)) /\
  Forall (fun k => above lo k /\ below hi k) (map fst (tree_kvs V h pg)).
Proof.
  induction h as [|h IH]; intros pg lo hi H; cbn [tree tree_kvs] in *.
  - rewrite leaf_entries_keys. tauto.
  - destruct H as (_ & _ & K & B).
    destruct (kids_content _ (tree_kvs V h) IH _ _ _ K) as [S F]. split; auto.
    destruct b; [|exact F].
    eapply Forall_impl; [|exact F]. cbn beta. intros k [Hk Hk']. split; auto.
    destruct (B eq_refl) as [B1 _]. unfold first_sep in *.
    destruct (branch_entries (V pg)) as [|[k0 c0] es]; [destruct K|].
    cbn in Hk. eapply above_trans; [apply B1; reflexivity|exact Hk].
Qed.

(** the tree only depends on the view of its own pages *)
Lemma tree_frame b V V' : forall h pg lo hi,
  (forall q, In q (tree_pages V h pg) -> V' q = V q) -> tree b V h pg lo hi -> tree b V' h pg lo hi.
Proof.
  induction h as [|h IH]; intros pg lo hi Hq H; cbn [tree] in *.
  - rewrite !(Hq pg) by (cbn; auto). exact H.
  - cbn [tree_pages] in Hq. rewrite !(Hq pg) by (cbn; auto). destruct H as (A & W & K & B). splits; auto.
    + eapply kids_mono; [exact K|]. intros k c l hh Hi. apply IH. intros q Hin. apply Hq. right.
      apply in_flat_map. exists (k, c). auto.
    + intro Hb. destruct (B Hb) as [B1 B2]. split; auto. destruct h as [|h']; auto.
      rewrite Forall_forall in *. intros e He. rewrite Hq; auto. right. apply in_flat_map. exists e. split; auto.
      cbn. auto.
Qed.
Lemma kvs_frame V V' : forall h pg, (forall q, In q (tree_pages V h pg) -> V' q = V q) ->
  tree_kvs V' h pg = tree_kvs V h pg /\ tree_pages V' h pg = tree_pages V h pg.
Proof.
  induction h as [|h IH]; intros pg Hq; cbn [tree_kvs tree_pages] in *.
  - rewrite (Hq pg) by (cbn; auto). auto.
  - rewrite !(Hq pg) by (cbn; auto).
    assert (G : forall e, In e (branch_entries (V pg)) ->
       tree_kvs V' h (snd e) = tree_kvs V h (snd e) /\ tree_pages V' h (snd e) = tree_pages V h (snd e)).
    { intros e He. apply IH. intros q Hin. apply Hq. right. apply in_flat_map. eauto. }
    split; [|f_equal]; apply flat_map_ext_in; intros e He; apply G; auto.
Qed.

(** the strict form implies the loose one *)
Lemma tree_loose V : forall h pg lo hi, tree true V h pg lo hi -> tree false V h pg lo hi.
Proof.
  induction h as [|h IH]; intros pg lo hi H; cbn [tree] in *; auto.
  destruct H as (A & W & K & B). splits; auto; try discriminate.
  destruct (B eq_refl) as [B1 _].
  assert (K' : kids (tree false V h) (branch_entries (V pg)) (first_sep (V pg)) hi)
    by (eapply kids_mono; [exact K|auto]).
  unfold first_sep in *. destruct (branch_entries (V pg)) as [|[k0 c0] es]; [destruct K|].
  specialize (B1 _ eq_refl). clear - K' B1.
  assert (G : forall h c l l' hi, tree false V h c l hi -> (forall k, above l k -> above l' k) -> tree false V h c l' hi).
  { clear. induction h as [|h IH]; intros c l l' hi H Hl; cbn [tree] in *.
    - destruct H as (A & W & S & F). splits; auto. eapply Forall_impl; [|exact F]. cbn. intuition.
    - destruct H as (A & W & K & B). splits; auto; try discriminate.
      destruct (branch_entries (V c)) as [|[k0 c0] es]; [destruct K|]. destruct es as [|[k1 c1] es].
      + cbn [kids] in *. eauto.
      + rewrite kids_cons2 in *. destruct K as (K1 & K2 & K3 & K4 & K5). splits; eauto. }
  destruct es as [|[k1 c1] es].
  - cbn [kids] in *. eapply G; eauto. intros k Hk. eapply above_trans; eauto.
  - rewrite kids_cons2 in *. destruct K' as (A & B & C & D & E). splits; auto.
    + eapply G; eauto. intros k Hk. eapply above_trans; eauto.
    + eapply above_trans; eauto.
Qed.

(** ** lookup *)
Lemma lookup_app k l1 l2 : lookup k (l1 ++ l2) = match lookup k l1 with Some v => Some v | None => lookup k l2 end.
Proof. induction l1 as [|[k' v] l1 IH]; cbn [lookup app]; auto. destruct (key_dec k k'); auto. Qed.
Lemma lookup_notin k l : ~ In k (map fst l) -> lookup k l = None.
Proof.
  induction l as [|[k' v] l IH]; cbn [lookup map fst]; intro H; auto. destruct (key_dec k k') as [->|]; cbn in H.
  - tauto.
  - apply IH. tauto.
Qed.
Lemma lookup_in_iff k l : lookup k l <> None <-> In k (map fst l).
Proof.
  split.
  - intro H. destruct (in_dec key_dec k (map fst l)); auto. exfalso. apply H. apply lookup_notin; auto.
  - intros Hi E. induction l as [|[k' v] l IH]; cbn in *; auto. destruct (key_dec k k') as [->|]; [discriminate|].
    destruct Hi; auto.
Qed.
Lemma lookup_mid k v l1 l2 : ~ In k (map fst l1) -> lookup k (l1 ++ (k, v) :: l2) = Some v.
Proof. intro H. rewrite lookup_app, lookup_notin by auto. cbn. destruct (key_dec k k); congruence. Qed.
Lemma lookup_other k k' v l1 l2 : k' <> k -> lookup k' (l1 ++ (k, v) :: l2) = lookup k' (l1 ++ l2).
Proof. intro H. rewrite !lookup_app. cbn. destruct (key_dec k' k); [congruence|]. reflexivity. Qed.

(** ** Searching a page *)
Lemma page_search_at leaf p k l1 l2 : wf_page leaf p -> blen k < 65536 ->
  page_keys leaf p = l1 ++ l2 -> ksorted (page_keys leaf p) ->
  Forall (fun x => klt x k) l1 -> Forall (klt k) l2 ->
  page_search p k = Ok (false, N.of_nat (length l1)).
Proof.
  intros W Hk E S F1 F2. destruct (page_search_correct leaf p k W S Hk) as (b & i & Es & Hb & _ & Hf).
  rewrite Es. destruct b.
  - exfalso. assert (Hi : In k (page_keys leaf p)) by (apply Hb; auto). rewrite E in Hi. apply in_app_iff in Hi.
    rewrite Forall_forall in F1, F2. destruct Hi as [Hi|Hi]; [apply F1 in Hi|apply F2 in Hi]; eapply klt_irrefl; eauto.
  - destruct (Hf eq_refl) as [Hle H]. do 2 f_equal.
    assert (length l1 = N.to_nat i); [|lia].
    destruct (Nat.lt_trichotomy (length l1) (N.to_nat i)) as [C|[C|C]]; auto; exfalso.
    + destruct (nth_error_lt_Some (page_keys leaf p) (length l1)) as [x Hx].
      { lia. }
      pose proof Hx as Hx'. rewrite E, nth_error_app2 in Hx' by lia. apply nth_error_In in Hx'.
      rewrite Forall_forall in F2. apply F2 in Hx'. destruct (H _ _ Hx) as [H1 _].
      eapply klt_asym; eauto.
    + destruct (nth_error_lt_Some (page_keys leaf p) (N.to_nat i)) as [x Hx].
      { rewrite E, app_length. lia. }
      pose proof Hx as Hx'. rewrite E, nth_error_app1 in Hx' by lia. apply nth_error_In in Hx'.
      rewrite Forall_forall in F1. apply F1 in Hx'. destruct (H _ _ Hx) as [_ H1].
      eapply klt_asym; eauto.
Qed.

Lemma page_search_found leaf p k l1 l2 : wf_page leaf p -> blen k < 65536 ->
  page_keys leaf p = l1 ++ k :: l2 -> ksorted (page_keys leaf p) ->
  page_search p k = Ok (true, N.of_nat (length l1)).
Proof.
  intros W Hk E S. destruct (page_search_correct leaf p k W S Hk) as (b & i & Es & Hb & Ht & _).
  assert (b = true) by (apply Hb; rewrite E; apply in_app_iff; cbn; auto). subst b.
  rewrite Es. do 2 f_equal. specialize (Ht eq_refl).
  assert (Hn : nth_error (page_keys leaf p) (length l1) = Some k) by (rewrite E, nth_error_app2, Nat.sub_diag by lia; auto).
  pose proof (sorted_NoDup _ S) as ND. rewrite NoDup_nth_error in ND.
  assert (length l1 = N.to_nat i); [|lia]. apply ND.
  - apply nth_error_Some_lt in Hn. auto.
  - congruence.
Qed.

(** every search splits the keys *)
Lemma sorted_split_at k : forall l, ksorted l ->
  (exists l1 l2, l = l1 ++ k :: l2) \/
  (exists l1 l2, l = l1 ++ l2 /\ Forall (fun x => klt x k) l1 /\ Forall (klt k) l2).
Proof.
  induction l as [|a l IH]; intro S.
  - right. exists [], []. auto.
  - apply sorted_cons_inv in S. destruct S as [S F]. destruct (klt_total a k) as [H|[->|H]].
    + destruct (IH S) as [(l1 & l2 & ->)|(l1 & l2 & -> & F1 & F2)].
      * left. exists (a :: l1), l2. reflexivity.
      * right. exists (a :: l1), l2. splits; auto.
    + left. exists [], l. reflexivity.
    + right. exists [], (a :: l). splits; auto. constructor; auto. eapply Forall_impl; [|exact F].
      intros x Hx. cbn beta in *. eapply klt_trans; eauto.
Qed.

Lemma branch_entries_length p : length (branch_entries p) = N.to_nat (pg_nkeys p).
Proof. unfold branch_entries. rewrite map_length. apply slots_length. Qed.
Lemma leaf_entries_length p : length (leaf_entries p) = N.to_nat (pg_nkeys p).
Proof. unfold leaf_entries. rewrite map_length. apply slots_length. Qed.

Lemma child_at_ok p i k c : wf_page false p -> nth_error (branch_entries p) (N.to_nat i) = Some (k, c) ->
  child_at p i = Ok c.
Proof.
  intros W H. pose proof (nth_error_Some_lt _ _ _ H) as Hl. rewrite branch_entries_length in Hl.
  unfold branch_entries in H. rewrite nth_error_map, slots_nth in H by lia. rewrite N2Nat.id in H. cbn [option_map] in H.
  injection H as Hk Hc. unfold child_at.
  assert (Hi : i < pg_nkeys p) by lia.
  destruct (wf_slot _ _ _ W Hi) as [_ H2]. pose proof (wf_nkeys_small _ _ W).
  pose proof (node_base_le false p (slot p i)). cbn [node_base] in *.
  unfold slot_in_page, slot_addr, HDR, PAGE_SIZE, BRANCH_BASE in *.
  destruct (N.leb_spec (18 + 2 * i + 2) 4096); [|lia]. destruct (N.leb_spec (slot p i + 8) 4096); [|lia].
  cbn [andb]. rewrite Hc. reflexivity.
Qed.

(** the child followed for a key: the last entry whose separator is not greater,
    or the first entry *)
Lemma child_of_ok p k : wf_page false p -> ksorted (page_keys false p) -> blen k < 65536 ->
  branch_entries p <> [] ->
  exists pre ki c post, branch_entries p = pre ++ (ki, c) :: post /\
    child_index p k = Ok (N.of_nat (length pre)) /\ child_of p k = Ok c /\
    (pre = [] \/ kle ki k) /\ (forall k0, first_sep p = Some k0 -> kle k0 k -> kle ki k) /\
    Forall (fun e => klt k (fst e)) post.
Proof.
  intros W S Hk Hne.
  assert (G : exists pre ki c post, branch_entries p = pre ++ (ki, c) :: post /\
     child_index p k = Ok (N.of_nat (length pre)) /\
     (pre = [] \/ kle ki k) /\ Forall (fun e => klt k (fst e)) post).
  { unfold child_index.
    destruct (sorted_split_at k _ S) as [(l1 & l2 & E)|(l1 & l2 & E & F1 & F2)].
    - rewrite (page_search_found false p k l1 l2) by auto. cbn [bindr negb andb].
      rewrite <- branch_entries_keys in E.
      apply map_eq_app in E. destruct E as (e1 & e2 & E & E1 & E2).
      apply map_eq_cons in E2. destruct E2 as ([ki c] & post & -> & Ek & E2). cbn in Ek. subst ki.
      exists e1, k, c, post. splits; auto.
      + assert (N.of_nat (length l1) < pg_nkeys p).
        { pose proof (branch_entries_length p). rewrite E in H. rewrite app_length in H. cbn [length] in H.
          subst l1. rewrite map_length. lia. }
        destruct (N.leb_spec (pg_nkeys p) (N.of_nat (length l1))); [lia|]. subst l1. rewrite map_length. reflexivity.
      + right. apply kle_refl.
      + rewrite <- branch_entries_keys, E in S. rewrite map_app in S. apply sorted_app in S. destruct S as (_ & S & _).
        cbn [map fst] in S. apply sorted_cons_inv in S. destruct S as [_ S]. rewrite Forall_map in S. exact S.
    - rewrite (page_search_at false p k l1 l2) by auto. cbn [bindr negb andb].
      rewrite <- branch_entries_keys in E.
      apply map_eq_app in E. destruct E as (e1 & e2 & E & E1 & E2).
      pose proof (branch_entries_length p) as HL. rewrite E, app_length in HL.
      destruct (N.ltb_spec 0 (N.of_nat (length l1))) as [Hpos|Hz].
      + destruct (rev e1) as [|[ki c] e1r] eqn:Er.
        { apply (f_equal (@length _)) in Er. rewrite rev_length in Er. cbn in Er. subst l1. rewrite map_length in Hpos. lia. }
        assert (Ee : e1 = rev e1r ++ [(ki, c)]) by (rewrite <- (rev_involutive e1), Er; reflexivity).
        exists (rev e1r), ki, c, e2. splits.
        * rewrite E, Ee, <- app_assoc. reflexivity.
        * assert (Hl1 : length l1 = Datatypes.S (length (rev e1r))).
          { subst l1. rewrite map_length, Ee, app_length. cbn [length]. lia. }
          assert (length e1 = length l1) by (subst l1; rewrite map_length; auto).
          destruct (N.leb_spec (pg_nkeys p) (N.of_nat (length l1) - 1)); [lia|]. f_equal. lia.
        * right. left. rewrite <- E1, Ee, map_app, Forall_app in F1. destruct F1 as [_ F1].
          apply Forall_inv in F1. exact F1.
        * rewrite <- E2, Forall_map in F2. exact F2.
      + destruct e1; [|subst l1; cbn [map length] in Hz; lia]. cbn [app] in E.
        destruct e2 as [|[ki c] e2]; [congruence|].
        exists [], ki, c, e2. splits; auto.
        * subst l1. cbn [map length]. cbn [length] in HL. destruct (N.leb_spec (pg_nkeys p) (N.of_nat 0)); [lia|reflexivity].
        * subst l2. cbn [map fst] in F2. inversion F2; subst. rewrite Forall_map in *. auto. }
  destruct G as (pre & ki & c & post & E & Ei & Hp & Ho).
  exists pre, ki, c, post. splits; auto.
  - unfold child_of. rewrite Ei. cbn [bindr]. apply (child_at_ok p _ ki); auto.
    rewrite E, Nat2N.id, nth_error_app2, Nat.sub_diag by lia. reflexivity.
  - intros k0 H0 Hle. destruct Hp as [->|]; auto. unfold first_sep in H0. rewrite E in H0. cbn in H0. injection H0 as <-. auto.
Qed.

Lemma leaf_value_ok p i k v : wf_page true p -> nth_error (leaf_entries p) (N.to_nat i) = Some (k, v) ->
  leaf_value p i = Ok v /\ node_key true p (slot p i) = k.
Proof.
  intros W H. pose proof (nth_error_Some_lt _ _ _ H) as Hl. rewrite leaf_entries_length in Hl.
  unfold leaf_entries in H. rewrite nth_error_map, slots_nth in H by lia. rewrite N2Nat.id in H. cbn [option_map] in H.
  injection H as Hk Hv. assert (Hi : i < pg_nkeys p) by lia. unfold leaf_value.
  rewrite (wf_key_in_page true p i W Hi). destruct (wf_slot _ _ _ W Hi) as [_ H2].
  apply N.leb_le in H2. rewrite H2. cbn [andb]. rewrite Hv. auto.
Qed.

Lemma lookup_nth k v l : NoDup (map fst l) -> In (k, v) l -> lookup k l = Some v.
Proof.
  induction l as [|[k' v'] l IH]; cbn [map fst lookup]; intros ND Hi; [destruct Hi|].
  inversion ND as [|? ? Hn ND']; subst. destruct (key_dec k k') as [->|Hne].
  - destruct Hi as [Hi|Hi]; [congruence|]. exfalso. apply Hn. apply in_map_iff. exists (k', v). auto.
  - destruct Hi as [Hi|Hi]; [congruence|]. auto.
Qed.

(** searching a leaf is a lookup in its entries *)
Lemma leaf_lookup p k : wf_page true p -> ksorted (page_keys true p) -> blen k < 65536 ->
  (do (found, i) <- page_search p k ;; if found then leaf_value p i else Err NOTFOUND) =
  match lookup k (leaf_entries p) with Some v => Ok v | None => Err NOTFOUND end.
Proof.
  intros W S Hk. destruct (sorted_split_at k _ S) as [(l1 & l2 & E)|(l1 & l2 & E & F1 & F2)].
  - rewrite (page_search_found true p k l1 l2) by auto. cbn [bindr].
    pose proof E as E'. rewrite <- leaf_entries_keys in E'. apply map_eq_app in E'. destruct E' as (e1 & e2 & E' & E1 & E2).
    apply map_eq_cons in E2. destruct E2 as ([k' v] & post & -> & Ek & E2). cbn in Ek. subst k'.
    assert (Hn : nth_error (leaf_entries p) (N.to_nat (N.of_nat (length l1))) = Some (k, v)).
    { rewrite Nat2N.id, E', nth_error_app2; subst l1; rewrite map_length; [|lia]. rewrite Nat.sub_diag. reflexivity. }
    destruct (leaf_value_ok p _ k v W Hn) as [-> _].
    rewrite (lookup_nth k v); auto.
    + rewrite leaf_entries_keys. apply sorted_NoDup; auto.
    + eapply nth_error_In; eauto.
  - rewrite (page_search_at true p k l1 l2) by auto. cbn [bindr].
    rewrite lookup_notin; auto. rewrite leaf_entries_keys, E, in_app_iff. rewrite Forall_forall in F1, F2.
    intros [Hi|Hi]; [apply F1 in Hi|apply F2 in Hi]; eapply klt_irrefl; eauto.
Qed.

(** a key is looked up in the child it is routed to *)
Lemma route_lookup b V h pre ki c post lo hi k :
  kids (tree b V h) (pre ++ (ki, c) :: post) lo hi ->
  (pre = [] \/ kle ki k) -> Forall (fun e => klt k (fst e)) post ->
  lookup k (flat_map (fun e => tree_kvs V h (snd e)) (pre ++ (ki, c) :: post)) = lookup k (tree_kvs V h c).
Proof.
  intros K Hp Ho. rewrite flat_map_app. cbn [flat_map snd]. rewrite !lookup_app.
  rewrite (lookup_notin k (flat_map _ pre)).
  - destruct (lookup k (tree_kvs V h c)) eqn:E; auto. apply lookup_notin. intro Hi.
    destruct post as [|[k1 c1] post]; [exact Hi|].
    assert (K1 : kids (tree b V h) ((k1, c1) :: post) (Some k1) hi).
    { replace (pre ++ (ki, c) :: (k1, c1) :: post) with ((pre ++ [(ki, c)]) ++ (k1, c1) :: post) in K
        by (rewrite <- app_assoc; reflexivity).
      apply kids_app in K; [tauto|]. destruct pre; discriminate. }
    destruct (kids_content _ (tree_kvs V h) (tree_content b V h) _ _ _ K1) as [_ F].
    rewrite Forall_forall in F. apply F in Hi. destruct Hi as [Hi _]. cbn in Hi. apply Forall_inv in Ho. cbn in Ho.
    eapply kle_not_klt; eauto.
  - intro Hi. destruct Hp as [->|Hp]; [destruct Hi|]. destruct pre as [|e pre]; [destruct Hi|].
    apply kids_app in K; [|discriminate]. destruct K as (K1 & _).
    destruct (kids_content _ (tree_kvs V h) (tree_content b V h) _ _ _ K1) as [_ F].
    rewrite Forall_forall in F. apply F in Hi. destruct Hi as [_ Hi]. cbn in Hi.
    eapply kle_not_klt; eauto.
Qed.

(** ** Descents *)
Definition path_in (V : view) (h : nat) (pg : N) (path : list N) : Prop :=
  length path = S h /\ hd 0 path = pg /\ (forall q, In q path -> In q (tree_pages V h pg)).

Lemma find_leaf_ok b E t k : blen k < 65536 -> forall h fuel pg lo hi, (h < fuel)%nat ->
  tree b (get_page E t) h pg lo hi ->
  exists p, find_leaf fuel E t pg k = Ok p /\ wf_page true p /\ ksorted (page_keys true p) /\
    lookup k (tree_kvs (get_page E t) h pg) = lookup k (leaf_entries p).
Proof.
  intros Hk. induction h as [|h IH]; intros fuel pg lo hi Hf T; (destruct fuel as [|f]; [lia|]); cbn [tree find_leaf tree_kvs] in *.
  - destruct T as (_ & W & S & _). rewrite (wf_is_leaf true _ W). eauto.
  - destruct T as (_ & W & K & _). rewrite (wf_is_leaf false _ W), (wf_is_branch false _ W). cbn [negb].
    pose proof (kids_sorted _ _ _ _ K) as S. rewrite branch_entries_keys in S.
    destruct (child_of_ok _ k W S Hk (kids_nonempty _ _ _ _ K)) as (pre & ki & c & post & Ee & _ & Ec & Hp & _ & Ho).
    rewrite Ec. cbn [bindr]. rewrite Ee in K |- *.
    rewrite (route_lookup b _ h pre ki c post _ _ k K Hp Ho).
    apply (IH f c _ _ ltac:(lia) (kids_mid _ _ _ _ _ _ _ K)).
Qed.

Lemma db_get_ok b E t k h : blen k < 65536 -> (h < 64)%nat -> t_root t <> 0 ->
  tree b (get_page E t) h (t_root t) None None ->
  db_get E t k = match lookup k (tree_kvs (get_page E t) h (t_root t)) with Some v => Ok v | None => Err NOTFOUND end.
Proof.
  intros Hk Hh Hr T. unfold db_get. destruct (N.eqb_spec (t_root t) 0); [tauto|].
  destruct (find_leaf_ok b E t k Hk h FIND_FUEL _ _ _ Hh T) as (p & -> & W & S & ->). cbn [bindr].
  apply leaf_lookup; auto.
Qed.
