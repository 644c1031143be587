(** The joint model of a request and a reply socket (Model/ReqRepNet.v): connections. *)
From Coq Require Import ZArith Permutation.
From Verif Require Import Model.Base Model.Map Model.Framed Model.WireReqRep Model.WireAuth Model.Compression Model.Handshake Model.ReqDriver Model.RepDriver Model.Net Model.ReqRepNet
  Spec.Wire Spec.Stream Spec.AuthSpec Spec.ReqSpec Spec.RepSpec
  Proofs.BaseP Proofs.MapP Proofs.FramedP2 Proofs.ReqRepP Proofs.AuthP Proofs.HandshakeP Proofs.HandshakeP2 Proofs.NetP
  Proofs.ReqDriverP Proofs.RepDriverP Proofs.RepDriverP2 Proofs.RepNetP.
Local Open Scope N_scope.

(** * The codec *)
Lemma rr_item_wf s b m s' r : rr_ok s -> rr_decode s b = DMsg m s' r -> rr_wf m.
Proof.
  intros Ok Dc. 
  destruct (rr_cases_all s b) as [->|x b' -> -> Hx|b' -> -> Hl|c idb szb r0 -> -> Hi Hs Hr|c idb szb p r0 -> -> Hi Hs Hp|h -> Hl|h p r0 -> -> Hp]; subst; cbn [rr_decode] in Dc.
  - discriminate.
  - rewrite rr_header_foreign in Dc by assumption. discriminate.
  - rewrite rr_header_short in Dc by assumption. discriminate.
  - rewrite rr_header_full in Dc by assumption. rewrite rr_payload_short in Dc by assumption. discriminate.
  - rewrite rr_header_full in Dc by assumption. rewrite rr_payload_full in Dc by assumption. inversion Dc; subst. unfold rr_wf, rr_id, rr_payload_size. cbn [rr_hdr rrh_id rrh_size rr_payload].
    rewrite Hp. pose proof (get_be_lt idb 4 Hi). pose proof (get_be_lt szb 4 Hs). cbn in *. auto.
  - rewrite rr_payload_short in Dc by assumption. discriminate.
  - rewrite rr_payload_full in Dc by assumption. inversion Dc; subst. destruct Ok as [O1 O2]. unfold rr_wf, rr_id, rr_payload_size. cbn [rr_hdr rr_payload]. rewrite Hp. auto.
Qed.
Lemma rr_head m : exists t, rr_encode m = x02 :: t. Proof. eexists; reflexivity. Qed.
Lemma rr_nonempty m : rr_encode m <> []. Proof. discriminate. Qed.

Notation rdir := (dir rr_encode rr_ok rr_held rr_wf).
Notation rend := (endp rr_state rr_msg).
Notation rencs := (encs rr_encode).

Lemma rdir_poll (a b : rend) input r b' : rdir a b -> pipe_offers input (en_in b) = true -> rr_poll input b = (r, b') ->
  r <> PPanic /\ rdir a b' /\ en_items b' = en_items b ++ match r with PItem m => [m] | _ => [] end /\
  en_hs b' = en_hs b /\ en_greet b' = en_greet b /\ en_sent b' = en_sent b /\ en_on b' = en_on b.
Proof. apply (dir_poll rr_decode RRIo rr_encode rr_ok rr_held rr_conserving rr_wf rr_item_wf). Qed.
Lemma rdir_hs (a b : rend) used rest : rdir a b -> pipe_offers (used ++ rest) (en_in b) = true -> en_items b = [] -> en_fr b = framed_new RRHeader ->
  rdir a (end_hs (used ++ rest) rest b) /\ en_hs (end_hs (used ++ rest) rest b) = en_hs b ++ io_data used.
Proof. apply (dir_hs rr_encode RRHeader rr_ok rr_held I eq_refl rr_wf). Qed.

(** * Views *)
(** The fields of an end that the other side's steps cannot change. *)
Definition noin (a : rend) := (en_fr a, en_hs a, en_items a, en_greet a, en_sent a, en_on a).
Definition cview (k : rlink) := noin (lk_c k).
Definition sview (k : rlink) := noin (lk_s k).
Lemma noin_inv a b : noin a = noin b -> en_fr a = en_fr b /\ en_hs a = en_hs b /\ en_items a = en_items b /\ en_greet a = en_greet b /\ en_sent a = en_sent b /\ en_on a = en_on b.
Proof. unfold noin. intros H. inversion H. auto 6. Qed.
Definition same_view {V} (f : rlink -> V) (ls ls' : list (N * rlink)) : Prop :=
  mkeys ls' = mkeys ls /\ forall l, option_map f (mget l ls') = option_map f (mget l ls).
Lemma same_view_refl {V} (f : rlink -> V) ls : same_view f ls ls. Proof. split; auto. Qed.
Lemma same_view_trans {V} (f : rlink -> V) a b c : same_view f a b -> same_view f b c -> same_view f a c.
Proof. intros [K1 V1] [K2 V2]. split; [congruence|]. intros l. rewrite V2. apply V1. Qed.
Lemma same_view_set {V} (f : rlink -> V) ls l k k' : mget l ls = Some k -> f k' = f k -> same_view f ls (mset l k' ls).
Proof.
  intros G E. split.
  - rewrite mkeys_set. unfold mem. rewrite G. reflexivity.
  - intros x. rewrite mget_set. destruct (eq_dec x l) as [->|]; [rewrite G; cbn; congruence|reflexivity].
Qed.
Lemma view_get {V} (f : rlink -> V) ls ls' l k' : same_view f ls ls' -> mget l ls' = Some k' -> exists k, mget l ls = Some k /\ f k' = f k.
Proof. intros [_ H] G. specialize (H l). rewrite G in H. cbn in H. destruct (mget l ls) as [k|]; [|discriminate]. exists k. cbn in H. split; congruence. Qed.
Lemma view_get' {V} (f : rlink -> V) ls ls' l k : same_view f ls ls' -> mget l ls = Some k -> exists k', mget l ls' = Some k' /\ f k' = f k.
Proof. intros [_ H] G. specialize (H l). rewrite G in H. cbn in H. destruct (mget l ls') as [k'|]; [|discriminate]. exists k'. cbn in H. split; congruence. Qed.
Lemma view_len {V} (f : rlink -> V) ls ls' : same_view f ls ls' -> length ls' = length ls.
Proof. intros [H _]. unfold mkeys in H. rewrite <- (map_length fst ls'), H, map_length. reflexivity. Qed.

Definition sents (ls : list (N * rlink)) : list rr_msg := flat_map (fun p => en_sent (lk_c (snd p))) ls.
Lemma view_sents ls ls' : NoDup (mkeys ls) -> same_view cview ls ls' -> sents ls' = sents ls.
Proof.
  revert ls'. induction ls as [|[l k] ls IH]; intros ls' Nd [K V].
  - destruct ls'; [reflexivity|discriminate].
  - destruct ls' as [|[l' k'] ls']; [discriminate|]. cbn in K. injection K as -> K. cbn in Nd. inversion Nd; subst.
    cbn [sents flat_map snd]. assert (E : cview k' = cview k).
    { specialize (V l). cbn [mget] in V. destruct (eq_dec l l); [|congruence]. cbn in V. congruence. }
    apply noin_inv in E. destruct E as (_ & _ & _ & _ & -> & _). f_equal. apply IH; [assumption|]. split; [exact K|]. intros x. specialize (V x). cbn [mget] in V.
    destruct (eq_dec x l) as [->|]; [|exact V].
    assert (N1 : mget l ls = None) by (apply mget_not_keys; assumption). assert (N2 : mget l ls' = None) by (apply mget_not_keys; unfold mkeys in *; rewrite K; assumption). rewrite N1, N2. reflexivity.
Qed.

(** Links are numbered 0, 1, ... *)
Definition numbered (ls : list (N * rlink)) : Prop := mkeys ls = map N.of_nat (seq 0 (length ls)).
Lemma numbered_nodup ls : numbered ls -> NoDup (mkeys ls).
Proof. intros ->. apply FinFun.Injective_map_NoDup; [intros a b; lia|apply seq_NoDup]. Qed.
Lemma numbered_lt ls l k : numbered ls -> mget l ls = Some k -> l < N.of_nat (length ls).
Proof. intros Nm G. assert (H : In l (mkeys ls)) by (apply mget_keys; congruence). rewrite Nm in H. apply in_map_iff in H. destruct H as (n & <- & H). apply in_seq in H. lia. Qed.
Lemma numbered_new ls k : numbered ls -> numbered (mset (N.of_nat (length ls)) k ls) /\ mget (N.of_nat (length ls)) ls = None /\ mset (N.of_nat (length ls)) k ls = ls ++ [(N.of_nat (length ls), k)].
Proof.
  intros Nm. assert (G : mget (N.of_nat (length ls)) ls = None).
  { destruct (mget (N.of_nat (length ls)) ls) eqn:E; [|reflexivity]. apply numbered_lt in E; [lia|exact Nm]. }
  assert (A : mset (N.of_nat (length ls)) k ls = ls ++ [(N.of_nat (length ls), k)]).
  { clear Nm. revert G. generalize (N.of_nat (length ls)) as n. intros n. induction ls as [|[x v] ls IH]; cbn [mset mget app]; [reflexivity|]. destruct (eq_dec n x); [discriminate|]. intros G. rewrite IH by exact G. reflexivity. }
  split; [|split; [exact G|exact A]]. rewrite A. unfold numbered, mkeys in *. rewrite map_app, app_length, seq_app, map_app, Nm. reflexivity.
Qed.
Lemma numbered_view {V} (f : rlink -> V) ls ls' : numbered ls -> same_view f ls ls' -> numbered ls'.
Proof. intros Nm S. pose proof (view_len _ _ _ S) as L. destruct S as [K _]. unfold numbered in *. rewrite K, L. exact Nm. Qed.

(** The newest link is the last of the list. *)
Definition newest (l : N) (ls : list (N * rlink)) : Prop := l + 1 = N.of_nat (length ls).
Lemma newest_last l ls k : numbered ls -> newest l ls -> mget l ls = Some k -> exists pre, ls = pre ++ [(l, k)] /\ mget l pre = None.
Proof.
  intros Nm Nw G. destruct (rev ls) as [|[x v] rl] eqn:R.
  - apply (f_equal (@rev _)) in R. rewrite rev_involutive in R. subst. discriminate.
  - apply (f_equal (@rev _)) in R. rewrite rev_involutive in R. cbn in R. subst ls. set (pre := rev rl) in *. clearbody pre.
    assert (X : x = N.of_nat (length pre)).
    { unfold numbered, mkeys in Nm. rewrite map_app, app_length, seq_app, map_app in Nm. apply app_inj_tail in Nm. destruct Nm as [_ Nm]. cbn in Nm. exact Nm. }
    unfold newest in Nw. rewrite app_length in Nw. cbn in Nw. assert (l = x) by lia. subst l.
    assert (P : mget x pre = None).
    { apply mget_not_keys. pose proof (numbered_nodup _ Nm) as Nd. unfold mkeys in Nd. rewrite map_app in Nd. cbn in Nd. apply NoDup_remove_2 in Nd. rewrite app_nil_r in Nd. exact Nd. }
    exists pre. split; [|exact P]. f_equal.
    assert (G' : mget x (pre ++ [(x, v)]) = Some v).
    { clear - P. induction pre as [|[y w] pre IH]; cbn [app mget] in *; [destruct (eq_dec x x); congruence|]. destruct (eq_dec x y); [discriminate|]. apply IH, P. }
    rewrite G in G'. inversion G'; reflexivity.
Qed.
Lemma mset_last (l : N) (k k' : rlink) pre : mget l pre = None -> mset l k' (pre ++ [(l, k)]) = pre ++ [(l, k')].
Proof. induction pre as [|[y w] pre IH]; cbn [app mget mset]; [destruct (eq_dec l l); congruence|]. destruct (eq_dec l y); [discriminate|]. intros H. rewrite IH by exact H. reflexivity. Qed.
Lemma sents_app a b : sents (a ++ b) = sents a ++ sents b. Proof. apply flat_map_app. Qed.

(** * Effects of the server on the links *)
Definition s_eff (cid : N) (k : rlink) (x : rout) : rlink :=
  match x with
  | RHanded c m true => if eq_dec c cid then link_s_send rr_encode [m] k else k
  | RAuthReply c w => if eq_dec c cid then link_s_greet w k else k
  | ROpen c _ => if eq_dec c cid then mkLink (lk_c k) (end_on (lk_s k)) else k
  | _ => k
  end.
Definition cinj (cids : list (N * N)) : Prop := forall c c' l, mget c cids = Some l -> mget c' cids = Some l -> c = c'.

Lemma route_view cids ls x : same_view cview ls (route cids ls x).
Proof.
  assert (K : forall cid f, (forall k, cview (f k) = cview k) ->
     same_view cview ls match mget cid cids with Some l => match mget l ls with Some k => mset l (f k) ls | None => ls end | None => ls end).
  { intros cid f H. destruct (mget cid cids) as [l|]; [|apply same_view_refl]. destruct (mget l ls) as [k|] eqn:G; [|apply same_view_refl]. eapply same_view_set; eauto. }
  destruct x as [| | | | |cid m [|]| | | |cid w|cid a| | | | | | |]; cbn [route]; try apply same_view_refl; apply K; reflexivity.
Qed.
Lemma routes_view cids os : forall ls, same_view cview ls (fold_left (route cids) os ls).
Proof.
  induction os as [|x os IH]; intros ls; cbn [fold_left]; [apply same_view_refl|]. eapply same_view_trans; [apply route_view|apply IH].
Qed.
Lemma route_get cids ls x l : cinj cids ->
  (forall cid, mget cid cids = Some l -> mget l (route cids ls x) = option_map (fun k => s_eff cid k x) (mget l ls)) /\
  ((forall cid, mget cid cids <> Some l) -> mget l (route cids ls x) = mget l ls).
Proof.
  intros Inj.
  assert (K : forall cid f,
     let r := match mget cid cids with Some l' => match mget l' ls with Some k => mset l' (f k) ls | None => ls end | None => ls end in
     (forall c, mget c cids = Some l -> mget l r = option_map (fun k => if eq_dec cid c then f k else k) (mget l ls)) /\
     ((forall c, mget c cids <> Some l) -> mget l r = mget l ls)).
  { intros cid f r. unfold r. split.
    - intros c Hc. destruct (eq_dec cid c) as [->|Ne].
      + rewrite Hc. destruct (mget l ls) as [k|] eqn:G; [rewrite mget_set_eq; reflexivity|rewrite G; reflexivity].
      + assert (Id : forall v : option rlink, option_map (fun k => k) v = v) by (intros [v|]; reflexivity). rewrite Id. destruct (mget cid cids) as [l'|] eqn:Gc; [|reflexivity]. destruct (mget l' ls) as [k|]; [|reflexivity]. apply mget_set_ne. intros ->. apply Ne. eapply Inj; eauto.
    - intros Hn. destruct (mget cid cids) as [l'|] eqn:Gc; [|reflexivity]. destruct (mget l' ls) as [k|]; [|reflexivity]. apply mget_set_ne. intros ->. eapply Hn; eauto. }
  assert (Id : forall v : option rlink, v = option_map (fun k => k) v) by (intros [v|]; reflexivity).
  destruct x as [| | | | |cid m [|]| | | |cid w|cid a| | | | | | |]; cbn [route]; unfold s_eff; try (split; intros; [apply Id|reflexivity]); apply K.
Qed.
Lemma routes_get cids os l : cinj cids -> forall ls,
  (forall cid, mget cid cids = Some l -> mget l (fold_left (route cids) os ls) = option_map (fun k => fold_left (s_eff cid) os k) (mget l ls)) /\
  ((forall cid, mget cid cids <> Some l) -> mget l (fold_left (route cids) os ls) = mget l ls).
Proof.
  intros Inj. induction os as [|x os IH]; intros ls; cbn [fold_left]; [split; [intros; destruct (mget l ls); reflexivity|reflexivity]|].
  destruct (IH (route cids ls x)) as [H1 H2]. destruct (route_get cids ls x l Inj) as [R1 R2]. split.
  - intros cid Hc. rewrite (H1 _ Hc), (R1 _ Hc). destruct (mget l ls); reflexivity.
  - intros Hn. rewrite (H2 Hn). apply R2, Hn.
Qed.
Lemma eff_none cid os : (forall x, In x os -> ~ mentions cid x) -> forall k, fold_left (s_eff cid) os k = k.
Proof.
  induction os as [|x os IH]; intros H k; [reflexivity|]. cbn [fold_left]. rewrite IH by (intros y Hy; apply H; right; exact Hy).
  specialize (H x (or_introl eq_refl)). destruct x as [| | | | |c m [|]| | | |c w|c a| | | | | | |]; cbn in *; try reflexivity; destruct (eq_dec c cid); congruence.
Qed.

(** Frames sent and received on a connection of the server. *)
Definition tak_on (cid : N) (l : list rout) : list rr_msg :=
  flat_map (fun x => match x with RHanded c m true => if eq_dec c cid then [m] else [] | _ => [] end) l.
Definition inc_on (cid : N) (l : list rout) : list rr_msg :=
  flat_map (fun x => match x with RIncoming c _ _ m => if eq_dec c cid then [m] else [] | _ => [] end) l.
Lemma tak_on_app c a b : tak_on c (a ++ b) = tak_on c a ++ tak_on c b. Proof. apply flat_map_app. Qed.
Lemma inc_on_app c a b : inc_on c (a ++ b) = inc_on c a ++ inc_on c b. Proof. apply flat_map_app. Qed.
Lemma on_none c os : (forall x, In x os -> ~ mentions c x) -> tak_on c os = [] /\ inc_on c os = [].
Proof.
  induction os as [|x os IH]; intros H; [auto|]. destruct IH as [I1 I2]; [intros y Hy; apply H; right; exact Hy|]. specialize (H x (or_introl eq_refl)).
  cbn [tak_on inc_on flat_map]. fold (tak_on c os) (inc_on c os). rewrite I1, I2.
  destruct x as [c' a r m| | | | |c' m [|]| | | | | | | | | | | |]; cbn in *; auto; destruct (eq_dec c' c); auto; contradiction.
Qed.
Lemma in_tak c m L : In m (tak_on c L) <-> In (RHanded c m true) L.
Proof.
  unfold tak_on. rewrite in_flat_map. split.
  - intros (x & Hx & H). destruct x as [| | | | |c' m' [|]| | | | | | | | | | | |]; try contradiction. destruct (eq_dec c' c); [|contradiction]. destruct H as [<-|[]]. subst. exact Hx.
  - intros H. eexists. split; [exact H|]. cbn. destruct (eq_dec c c); [left; reflexivity|congruence].
Qed.
Lemma in_inc c m L : In m (inc_on c L) <-> exists a r, In (RIncoming c a r m) L.
Proof.
  unfold inc_on. rewrite in_flat_map. split.
  - intros (x & Hx & H). destruct x as [c' a r m'| | | | | | | | | | | | | | | | |]; try contradiction. destruct (eq_dec c' c); [|contradiction]. destruct H as [<-|[]]. subst. eauto.
  - intros (a & r & H). eexists. split; [exact H|]. cbn. destruct (eq_dec c c); [left; reflexivity|congruence].
Qed.
