(** C84 at a reply socket: a client is served as if there were no others. *)
From Coq Require Import List NArith.
From Verif Require Import Model.Base Model.Map Model.Framed Model.WireReqRep Model.WireAuth Model.Compression Model.Handshake Model.ReqDriver Model.RepDriver Spec.RepSpec Spec.IsoRepSpec.
Import ListNotations.
Open Scope N_scope.
(*HEADEND*)
From Coq Require Import ZArith ZifyBool ZifyNat ZifyN Bool Lia.
From Verif Require Import Proofs.BaseP Proofs.MapP Proofs.RepDriverP Proofs.RepDriverP2.
Local Open Scope N_scope.

(** ** Places in a list *)
Lemma rank_some r : forall R k, rank r R = Some k -> nth_error R (N.to_nat k) = Some r /\ k < blen R.
Proof.
  induction R as [|x R IH]; intros k; cbn [rank]; [discriminate|]. unfold blen in *. cbn [length]. destruct (N.eqb_spec x r) as [->|]; [intros [= <-]; cbn; split; [reflexivity|lia]|].
  destruct (rank r R) as [j|]; [|discriminate]. intros [= <-]. destruct (IH j eq_refl) as (A & B). replace (N.to_nat (j + 1)) with (S (N.to_nat j)) by lia. split; [exact A|lia].
Qed.
Lemma rank_none r : forall R, rank r R = None <-> ~ In r R.
Proof.
  induction R as [|x R IH]; cbn [rank In]; [tauto|]. destruct (N.eqb_spec x r) as [->|]; [split; [discriminate|tauto]|]. destruct (rank r R); [split; [discriminate|]|]; intuition congruence.
Qed.
Lemma rank_in r R : In r R -> exists k, rank r R = Some k.
Proof. intros H. destruct (rank r R) as [k|] eqn:E; [eauto|]. apply rank_none in E. contradiction. Qed.
Lemma rank_app r R0 R1 : In r R0 -> rank r (R0 ++ R1) = rank r R0.
Proof.
  induction R0 as [|x R0 IH]; [intros []|]. cbn [app rank In]. destruct (N.eqb_spec x r) as [->|Ne]; [reflexivity|]. intros [H|H]; [congruence|]. now rewrite IH.
Qed.
Lemma rank_new r R0 R1 : ~ In r R0 -> rank r (R0 ++ r :: R1) = Some (blen R0).
Proof.
  unfold blen. induction R0 as [|x R0 IH]; cbn [app rank In length]; [rewrite N.eqb_refl; reflexivity|]. intros H. destruct (N.eqb_spec x r); [tauto|]. rewrite IH by tauto. f_equal. lia.
Qed.
Lemma rank_inj r r' R k : rank r R = Some k -> rank r' R = Some k -> r = r'.
Proof. intros A B. apply rank_some in A. apply rank_some in B. destruct A, B. congruence. Qed.

(** ** A client alone *)
Record loc := mkLoc { l_peer : option peer; l_os : list (N * os_state); l_next : N }.
Definition lv (o : list rout) : list client_obs :=
  flat_map (fun x => match x with RQueued _ r m => [CvQueued r m] | RUnsendable _ r => [CvUnsendable r] | RHanded _ m ok => [CvHanded m ok] | _ => [] end) o.

Section Rep.
Variables (max : option N) (min : N) (auth : option (bytes -> bool)) (co : option compressor) (D : decompressors) (a : N).
Notation run := (rp_run max min auth co D).
Notation act := (rp_act max min auth co D).

Definition lact (l : loc) (ev : client_event) : loc * list client_obs :=
  match ev with
  | CTurn fl rd sd first nx =>
    match l_peer l with
    | None => (l, [])
    | Some p =>
      if pr_open p then
        match peer_iter min co (mkPenv fl rd sd (option_map (fun f => match f with Some k => k | None => l_next l end) first) nx) (l_os l) (l_next l) p 0 0 with
        | (p', _, _, o, r) =>
          match r with
          | PNone => (mkLoc (Some (mkPeer (pr_cid p') [] [] false false)) (l_os l) (l_next l), lv o ++ [CvGone])
          | PReq m =>
            match try_decompress D (rr_ctype m) (rr_payload m) with
            | None => (mkLoc (Some p') (mset (l_next l) OsDropped (l_os l)) (l_next l + 1), lv o ++ [CvIn (l_next l) m; CvLost (l_next l)])
            | Some x => (mkLoc (Some p') (mset (l_next l) OsWait (l_os l)) (l_next l + 1), lv o ++ [CvIn (l_next l) m; CvForApp (l_next l) a x])
            end
          | _ => (mkLoc (Some p') (l_os l) (l_next l), lv o)
          end
        end
      else (mkLoc None (l_os l) (l_next l), [])
    end
  | CAnswer k x =>
    let ok := match l_peer l with Some p => existsb (fun e => fst e =? k) (pr_pending p) | None => false end in
    (mkLoc (l_peer l) (mset k (if ok then OsSent x else OsDropped) (l_os l)) (l_next l), [CvAnswered k x ok])
  | CDrop k => (mkLoc (l_peer l) (mset k OsDropped (l_os l)) (l_next l), [CvDropped k])
  end.
Fixpoint lrun (l : loc) (evs : list client_event) : loc * list client_obs :=
  match evs with
  | [] => (l, [])
  | ev :: evs' => let (l1, o1) := lact l ev in let (l2, o2) := lrun l1 evs' in (l2, o1 ++ o2)
  end.

(** ** The client inside the socket *)
Section R.
Variables (c : N) (RF : list N).
Definition rho (r : N) : N := match rank r RF with Some k => k | None => 0 end.
Definition rpe (e : N * N) : N * N := (rho (fst e), snd e).
Definition pmap (p : peer) : peer := mkPeer 0 (map rpe (pr_pending p)) (pr_egress p) (pr_flush p) (pr_open p).

Record rel (R0 : list N) (s : rp) (l : loc) : Prop := mkRel {
  r_peer : match mget a (rp_peers s) with
           | Some p => l_peer l = Some (pmap p) /\ pr_cid p = c /\ (forall e, In e (pr_pending p) -> In (fst e) R0)
           | None => l_peer l = None end;
  r_os : forall r, In r R0 -> mget (rho r) (l_os l) = mget r (rp_os s);
  r_next : l_next l = blen R0;
  r_lt : forall r, In r R0 -> r < rp_next_rid s;
  r_oth : forall b q, b <> a -> mget b (rp_peers s) = Some q -> (pr_open q = true -> pr_cid q <> c) /\ forall e, In e (pr_pending q) -> ~ In (fst e) R0 /\ fst e < rp_next_rid s;
  r_cid : ~ In c (rp_conns s) /\ ~ In c (map fst (rp_auths s)) /\ c < rp_next_cid s;
  r_held : forall r, In r (rp_held s ++ map q_rid (rp_chan s)) -> r < rp_next_rid s;
  r_keys : NoDup (mkeys (rp_peers s)) }.

Variables (R0 R1 : list N).
Hypothesis RFE : RF = R0 ++ R1.

Lemma rho_in r : In r R0 -> rank r RF = Some (rho r) /\ rho r < blen R0.
Proof using RFE.
  intros H. unfold rho. rewrite RFE, rank_app by exact H. destruct (rank_in r R0 H) as (k & E). rewrite E. split; [reflexivity|]. apply rank_some in E. tauto.
Qed.
Lemma rho_inj r r' : In r R0 -> In r' R0 -> rho r = rho r' -> r = r'.
Proof using RFE. intros H H' E. destruct (rho_in r H) as (A & _). destruct (rho_in r' H') as (B & _). rewrite E in A. exact (rank_inj _ _ _ _ A B). Qed.
Lemma rho_eqb r r' : In r R0 -> In r' R0 -> (rho r =? rho r') = (r =? r').
Proof using RFE. intros H H'. destruct (N.eqb_spec r r') as [->|Ne]; [apply N.eqb_refl|]. apply N.eqb_neq. intros E. apply Ne. now apply rho_inj. Qed.

Lemma pref_ok pref next r : next = blen R0 -> In r R0 -> (rho r =? match rank pref RF with Some k => k | None => next end) = (r =? pref).
Proof using RFE.
  intros -> H. destruct (rho_in r H) as (A & B). destruct (rank pref RF) as [k|] eqn:E.
  - destruct (N.eqb_spec r pref) as [->|Ne]; [apply N.eqb_eq; congruence|]. apply N.eqb_neq. intros X. apply Ne. subst k. exact (rank_inj _ _ _ _ A E).
  - assert (r <> pref) by (intros ->; congruence). rewrite (proj2 (N.eqb_neq r pref)) by assumption. apply N.eqb_neq. lia.
Qed.

Lemma find_map (f g : N * N -> bool) l : (forall e, In e l -> f (rpe e) = g e) -> find f (map rpe l) = option_map rpe (find g l).
Proof using. induction l as [|e l IH]; intros H; [reflexivity|]. cbn [map find]. rewrite (H e) by now left. destruct (g e); [reflexivity|]. apply IH. intros x Hx. apply H. now right. Qed.
Lemma filter_rpe (f g : N * N -> bool) l : (forall e, In e l -> f (rpe e) = g e) -> filter f (map rpe l) = map rpe (filter g l).
Proof using. induction l as [|e l IH]; intros H; [reflexivity|]. cbn [map filter]. rewrite (H e) by now left. rewrite IH by (intros x Hx; apply H; now right). destruct (g e); reflexivity. Qed.

Lemma pick_map os osl pref pref' l : (forall r, In r R0 -> mget (rho r) osl = mget r os) -> (forall e, In e l -> In (fst e) R0) ->
  match pref, pref' with None, None => True | Some k, Some k' => forall r, In r R0 -> (rho r =? k') = (r =? k) | _, _ => False end -> pick pref' osl (map rpe l) = option_map rpe (pick pref os l).
Proof using.
  intros Ho Hl Hp. unfold pick. assert (Ef : filter (os_done osl) (map rpe l) = map rpe (filter (os_done os) l)).
  { apply filter_rpe. intros e He. unfold os_done, rpe. cbn [fst]. now rewrite Ho by (apply Hl, He). }
  destruct pref as [k|], pref' as [k'|]; try contradiction; [|reflexivity]. rewrite Ef. rewrite (find_map _ (fun e => fst e =? k)).
  - destruct (find _ (filter (os_done os) l)); [reflexivity|]. destruct (filter (os_done os) l); reflexivity.
  - intros e He. unfold rpe. cbn [fst]. apply Hp, Hl. apply filter_In in He. tauto.
Qed.
Lemma unpend_map r l : In r R0 -> (forall e, In e l -> In (fst e) R0) -> unpend (rho r) (map rpe l) = map rpe (unpend r l).
Proof using RFE. intros H Hl. unfold unpend. apply filter_rpe. intros e He. unfold rpe. cbn [fst]. now rewrite rho_eqb by auto. Qed.

Lemma view_app o1 o2 : client_view c RF (o1 ++ o2) = client_view c RF o1 ++ client_view c RF o2. Proof using. apply flat_map_app. Qed.

Lemma iter_map fl rd sd pref pref' nx os osl rid next p tx failed tx2 failed2 p' t f o r :
  (forall r, In r R0 -> mget (rho r) osl = mget r os) -> (forall e, In e (pr_pending p) -> In (fst e) R0) -> match pref, pref' with None, None => True | Some k, Some k' => forall r, In r R0 -> (rho r =? k') = (r =? k) | _, _ => False end ->
  pr_cid p = c -> peer_iter min co (mkPenv fl rd sd pref nx) os rid p tx failed = (p', t, f, o, r) ->
  ((exists m, r = PReq m) -> rho rid = next) ->
  exists t2 f2 o2, peer_iter min co (mkPenv fl rd sd pref' nx) osl next (pmap p) tx2 failed2 = (pmap p', t2, f2, o2, r) /\ lv o2 = client_view c RF o /\ pr_cid p' = c /\ requests_of c o = [] /\
    (forall e, In e (pr_pending p') -> In (fst e) R0 \/ (exists m, r = PReq m) /\ fst e = rid) /\ (forall x, In x o -> match x with RQueued _ _ _ | RUnsendable _ _ | RHanded _ _ _ => True | _ => False end) /\ pr_open p' = pr_open p.
Proof using RFE.
  intros Ho Hl Hp Hc It Hn.
  assert (Nx : forall q, pr_cid q = c -> pr_open q = pr_open p -> (forall e, In e (pr_pending q) -> In (fst e) R0) ->
     (match nx with NxMsg m => (mkPeer (pr_cid q) (pr_pending q ++ [(rid, rr_id m)]) (pr_egress q) (pr_flush q) (pr_open q), tx, failed, [], PReq m)
      | NxErr => (q, tx, failed, [], PErr) | NxEof => (q, tx, failed, [], PNone) | NxPending => (q, tx, failed, [], PPend) end) = (p', t, f, o, r) ->
     exists t2 f2 o2, (match nx with NxMsg m => (mkPeer (pr_cid (pmap q)) (pr_pending (pmap q) ++ [(next, rr_id m)]) (pr_egress (pmap q)) (pr_flush (pmap q)) (pr_open (pmap q)), tx2, failed2, [], PReq m)
      | NxErr => (pmap q, tx2, failed2, [], PErr) | NxEof => (pmap q, tx2, failed2, [], PNone) | NxPending => (pmap q, tx2, failed2, [], PPend) end) = (pmap p', t2, f2, o2, r) /\ lv o2 = client_view c RF o /\ pr_cid p' = c /\ requests_of c o = [] /\
    (forall e, In e (pr_pending p') -> In (fst e) R0 \/ (exists m, r = PReq m) /\ fst e = rid) /\ (forall x, In x o -> match x with RQueued _ _ _ | RUnsendable _ _ | RHanded _ _ _ => True | _ => False end) /\ pr_open p' = pr_open p).
  { intros q Hq Hop Hql E. destruct nx as [m| | |]; injection E as <- <- <- <- <-; cbn [lv client_view requests_of flat_map];
      [|do 3 eexists; (split; [reflexivity|]); (split; [reflexivity|]); (split; [exact Hq|]); (split; [reflexivity|]); (split; [intros e He; left; apply Hql, He|]); (split; [intros x []|exact Hop])..].
    do 3 eexists. split; [unfold pmap; cbn [pr_cid pr_pending pr_egress pr_flush pr_open]; rewrite map_app; cbn [map]; unfold rpe at 3; cbn [fst snd]; rewrite (Hn (ex_intro _ m eq_refl)); reflexivity|].
    split; [reflexivity|]. split; [exact Hq|]. split; [reflexivity|]. split; [|split; [intros x []|exact Hop]]. cbn [pr_pending]. intros e He. apply in_app_or in He. destruct He as [He|[<-|[]]]; [left; apply Hql, He|right; split; [eauto|reflexivity]]. }
  unfold peer_iter in *. cbn [p_flush_ok p_ready p_send p_pref p_next] in *. cbv zeta in *.
  set (q := if pr_flush p && fl then mkPeer (pr_cid p) (pr_pending p) (pr_egress p) false (pr_open p) else p) in *.
  assert (Q : pr_cid q = c /\ pr_open q = pr_open p /\ pr_pending q = pr_pending p) by (unfold q; destruct (pr_flush p && fl); auto). destruct Q as (Q1 & Q2 & Q3).
  replace (if pr_flush (pmap p) && fl then mkPeer (pr_cid (pmap p)) (pr_pending (pmap p)) (pr_egress (pmap p)) false (pr_open (pmap p)) else pmap p) with (pmap q) by (unfold q, pmap; cbn [pr_flush]; destruct (pr_flush p && fl); reflexivity).
  rewrite <- Q3 in Hl. clearbody q. change (pr_egress (pmap q)) with (pr_egress q) in *.
  destruct (if rd then pr_egress q else []) as [|m eg].
  - change (pr_pending (pmap q)) with (map rpe (pr_pending q)). rewrite (pick_map os osl pref pref' (pr_pending q) Ho Hl Hp).
    destruct (pick pref os (pr_pending q)) as [[k id]|] eqn:Pk; cbn [option_map]; [|exact (Nx q Q1 Q2 Hl It)].
    destruct (pick_in _ _ _ _ Pk) as (Hin & _). assert (Hk : In k R0) by exact (Hl _ Hin). change (rpe (k, id)) with (rho k, id). cbv iota beta. rewrite (Ho k Hk), (unpend_map k _ Hk Hl).
    assert (Hu : forall e, In e (unpend k (pr_pending q)) -> In (fst e) R0) by (intros e He; apply Hl; unfold unpend in He; apply filter_In in He; tauto).
    destruct (mget k os) as [[|x|]|].
    + refine (Nx (mkPeer (pr_cid q) (unpend k (pr_pending q)) (pr_egress q) (pr_flush q) (pr_open q)) Q1 Q2 Hu It).
    + destruct (rep_outgoing min co id x) as [m|]; injection It as <- <- <- <- <-.
      * do 3 eexists. split; [reflexivity|]. split; [|split; [exact Q1|split; [reflexivity|split; [intros e He; left; apply Hu, He|split; [intros y [<-|[]]; exact I|exact Q2]]]]].
        cbn [lv client_view flat_map app]. rewrite Q1, N.eqb_refl. destruct (rho_in k Hk) as (E & _). rewrite E. reflexivity.
      * do 3 eexists. split; [reflexivity|]. split; [|split; [exact Q1|split; [reflexivity|split; [intros e He; left; apply Hu, He|split; [intros y [<-|[]]; exact I|exact Q2]]]]].
        cbn [lv client_view flat_map app]. rewrite Q1, N.eqb_refl. destruct (rho_in k Hk) as (E & _). rewrite E. reflexivity.
    + refine (Nx (mkPeer (pr_cid q) (unpend k (pr_pending q)) (pr_egress q) (pr_flush q) (pr_open q)) Q1 Q2 Hu It).
    + refine (Nx (mkPeer (pr_cid q) (unpend k (pr_pending q)) (pr_egress q) (pr_flush q) (pr_open q)) Q1 Q2 Hu It).
  - destruct sd; injection It as <- <- <- <- <-; do 3 eexists; (split; [reflexivity|]);
      (split; [cbn [lv client_view flat_map app]; rewrite Q1, N.eqb_refl; reflexivity|split; [exact Q1|split; [reflexivity|split; [intros e He; left; apply Hl, He|split; [intros y [<-|[]]; exact I|exact Q2]]]]]).
Qed.
End R.

Lemma iter_frame e os rid p tx failed p' t f o r : peer_iter min co e os rid p tx failed = (p', t, f, o, r) ->
  pr_cid p' = pr_cid p /\ (forall x, In x (pr_pending p') -> In x (pr_pending p) \/ fst x = rid /\ exists m, r = PReq m) /\
  (forall x, In x o -> match x with RQueued b _ _ | RUnsendable b _ | RHanded b _ _ => b = pr_cid p | _ => False end).
Proof using.
  unfold peer_iter. cbv zeta. set (q := if pr_flush p && p_flush_ok e then mkPeer (pr_cid p) (pr_pending p) (pr_egress p) false (pr_open p) else p).
  assert (Q : pr_cid q = pr_cid p /\ pr_pending q = pr_pending p) by (unfold q; destruct (pr_flush p && p_flush_ok e); auto). destruct Q as (Q1 & Q3). rewrite <- Q1, <- Q3. clearbody q.
  assert (Nx : forall u, pr_cid u = pr_cid q -> (forall x, In x (pr_pending u) -> In x (pr_pending q)) ->
     (match p_next e with NxMsg m => (mkPeer (pr_cid u) (pr_pending u ++ [(rid, rr_id m)]) (pr_egress u) (pr_flush u) (pr_open u), tx, failed, [], PReq m)
      | NxErr => (u, tx, failed, [], PErr) | NxEof => (u, tx, failed, [], PNone) | NxPending => (u, tx, failed, [], PPend) end) = (p', t, f, o, r) ->
     pr_cid p' = pr_cid q /\ (forall x, In x (pr_pending p') -> In x (pr_pending q) \/ fst x = rid /\ exists m, r = PReq m) /\
     (forall x, In x o -> match x with RQueued b _ _ | RUnsendable b _ | RHanded b _ _ => b = pr_cid q | _ => False end)).
  { intros u Hu Hp E. destruct (p_next e) as [m| | |]; injection E as <- <- <- <- <-; (split; [exact Hu|]); (split; [|intros x []]); cbn [pr_pending]; intros x Hx; auto.
    apply in_app_or in Hx. destruct Hx as [Hx|[<-|[]]]; [auto|right; split; [reflexivity|eauto]]. }
  destruct (if p_ready e then pr_egress q else []) as [|m eg].
  - destruct (pick (p_pref e) os (pr_pending q)) as [[k id]|]; [|apply Nx; auto].
    assert (Hu : forall x, In x (unpend k (pr_pending q)) -> In x (pr_pending q)) by (intros x Hx; unfold unpend in Hx; apply filter_In in Hx; tauto).
    destruct (mget k os) as [[|x|]|]; [apply Nx; auto| |apply Nx; auto..]. destruct (rep_outgoing min co id x); intros [= <- <- <- <- <-]; (split; [reflexivity|]); (split; [auto|intros y [<-|[]]; reflexivity]).
  - destruct (p_send e); intros [= <- <- <- <- <-]; (split; [reflexivity|]); (split; [auto|intros y [<-|[]]; reflexivity]).
Qed.

Lemma reqs_app c x y : requests_of c (x ++ y) = requests_of c x ++ requests_of c y. Proof using. apply flat_map_app. Qed.
Lemma quiet_view c RF o : (forall x, In x o -> match x with RQueued b _ _ | RUnsendable b _ | RHanded b _ _ | RGone b => b <> c | RIncoming b _ _ _ => b <> c | RYield _ | RLost _ | RResponded _ _ _ | RDiscarded _ => False | _ => True end) ->
  client_view c RF o = [] /\ requests_of c o = [].
Proof using.
  induction o as [|x o IH]; [auto|]. intros H. destruct IH as (A & B); [intros y Hy; apply H; now right|]. unfold client_view, requests_of in *. cbn [flat_map]. rewrite A, B, !app_nil_r.
  specialize (H x (or_introl eq_refl)). destruct x; try contradiction; auto; rewrite (proj2 (N.eqb_neq _ _)) by exact H; auto.
Qed.

(** Nothing that matters to the client has changed. *)
Lemma rel_other c RF R0 s l s' : rel c RF R0 s l -> mget a (rp_peers s') = mget a (rp_peers s) -> (forall r, In r R0 -> mget r (rp_os s') = mget r (rp_os s)) -> rp_next_rid s <= rp_next_rid s' ->
  (forall b q, b <> a -> mget b (rp_peers s') = Some q -> (pr_open q = true -> pr_cid q <> c) /\ forall e, In e (pr_pending q) -> ~ In (fst e) R0 /\ fst e < rp_next_rid s') ->
  (~ In c (rp_conns s') /\ ~ In c (map fst (rp_auths s')) /\ c < rp_next_cid s') -> (forall r, In r (rp_held s' ++ map q_rid (rp_chan s')) -> r < rp_next_rid s') -> NoDup (mkeys (rp_peers s')) -> rel c RF R0 s' l.
Proof using.
  intros [P O N L Ot C H Kd] Ep Eo Le Ot' C' H' Kd'. constructor; auto.
  - now rewrite Ep.
  - intros r Hr. rewrite Eo by exact Hr. auto.
  - intros r Hr. specialize (L r Hr). lia.
Qed.
Lemma oth_keep c RF R0 s l n : rel c RF R0 s l -> rp_next_rid s <= n -> forall b q, b <> a -> mget b (rp_peers s) = Some q -> (pr_open q = true -> pr_cid q <> c) /\ forall e, In e (pr_pending q) -> ~ In (fst e) R0 /\ fst e < n.
Proof using. intros R Le b q Hb G. destruct (r_oth _ _ _ _ _ R b q Hb G) as (A & B). split; [exact A|]. intros e He. destruct (B e He). split; [assumption|lia]. Qed.

Ltac done_other := eexists; split; [reflexivity|].

(** Another client's turn. *)
Lemma other_turn c RF R0 R1 s l b e s' o : rel c RF R0 s l -> RF = R0 ++ R1 -> (forall r, In r R1 -> rp_next_rid s' <= r) -> b <> a -> act s (VPeer b e) = (s', o) ->
  client_view c RF o = [] /\ requests_of c o = [] /\ rel c RF R0 s' l.
Proof using.
  intros R E Hge Hb A. pose proof (r_keys _ _ _ _ _ R) as Kd. cbn [rp_act] in A. unfold rp_peer in A. destruct (mget b (rp_peers s)) as [q|] eqn:G; [|injection A as <- <-; auto].
  destruct (r_oth _ _ _ _ _ R b q Hb G) as (Nc & Np). destruct (pr_open q).
  - specialize (Nc eq_refl). destruct (peer_iter min co e (rp_os s) (rp_next_rid s) q (rp_tx s) (rp_failed s)) as [[[[p' t] f] o1] r] eqn:It. destruct (iter_frame _ _ _ _ _ _ _ _ _ _ _ It) as (F1 & F2 & F3).
    destruct (quiet_view c RF o1) as (V1 & V2); [intros x Hx; specialize (F3 x Hx); destruct x; try contradiction; congruence|].
    set (p'' := match r with PNone => mkPeer (pr_cid p') [] [] false false | _ => p' end) in *.
    assert (P2 : pr_cid p'' <> c /\ (forall x, In x (pr_pending p'') -> ~ In (fst x) R0 /\ (fst x < rp_next_rid s \/ fst x = rp_next_rid s /\ exists m, r = PReq m))).
    { assert (K : forall x, In x (pr_pending p') -> ~ In (fst x) R0 /\ (fst x < rp_next_rid s \/ fst x = rp_next_rid s /\ exists m, r = PReq m)).
      { intros x Hx. destruct (F2 x Hx) as [H|(H & H2)]; [destruct (Np x H); auto|]. split; [|auto]. intros Hi. apply (r_lt _ _ _ _ _ R) in Hi. lia. }
      unfold p''. destruct r; (split; [cbn; congruence|]); cbn; auto. intros x []. }
    destruct P2 as (P2 & P3). clearbody p''.
    assert (Oth : forall n, rp_next_rid s <= n -> ((exists m, r = PReq m) -> rp_next_rid s < n) -> forall k u, k <> a -> mget k (mset b p'' (rp_peers s)) = Some u -> (pr_open u = true -> pr_cid u <> c) /\ forall x, In x (pr_pending u) -> ~ In (fst x) R0 /\ fst x < n).
    { intros n Hn Hm k u Hk. rewrite mget_set. destruct (eq_dec k b) as [->|]; [intros [= <-]|intros Gk; exact (oth_keep _ _ _ _ _ _ R Hn k u Hk Gk)]. split; [intros _; exact P2|]. intros x Hx. destruct (P3 x Hx) as (X1 & X2). split; [exact X1|]. destruct X2 as [X2|(-> & X3)]; [lia|auto]. }
    assert (Kd2 : NoDup (mkeys (mset b p'' (rp_peers s)))) by (apply nodup_set, Kd). assert (Kd3 : NoDup (mkeys (mdel b (rp_peers s)))) by (apply nodup_del, Kd).
    assert (Pa : mget a (mset b p'' (rp_peers s)) = mget a (rp_peers s)) by (apply mget_set_ne; congruence).
    assert (Plain : (forall m, r <> PReq m) -> rel c RF R0 (mkRp (rp_active s) (rp_conns s) (rp_auths s) (mset b p'' (rp_peers s)) (rp_chan s) (rp_held s) (rp_os s) (rp_next_rid s) (rp_next_cid s) t (rp_rx s) f (rp_dropped s)) l).
    { intros Hr. apply (rel_other _ _ _ s); auto; cbn; [lia| |apply R|apply R]. apply Oth; [lia|]. intros (m & Hm). destruct (Hr m Hm). }
    destruct r as [|m| | |].
    + injection A as <- <-. split; [exact V1|]. split; [exact V2|]. apply Plain. discriminate.
    + unfold rp_on_request in A. cbv zeta in A. cbn [rp_next_rid rp_active rp_conns rp_auths rp_peers rp_chan rp_held rp_os rp_next_cid rp_tx rp_rx rp_failed rp_dropped] in A.
      assert (Rk : rp_next_rid s + 1 <= rp_next_rid s' -> rank (rp_next_rid s) RF = None).
      { intros Hn. apply rank_none. rewrite E. intros Hi. apply in_app_or in Hi. destruct Hi as [Hi|Hi]; [apply (r_lt _ _ _ _ _ R) in Hi; lia|apply Hge in Hi; lia]. }
      assert (Kl : forall v rx ch, (forall r, In r (map q_rid ch) -> r < rp_next_rid s + 1) -> rel c RF R0 (mkRp (rp_active s) (rp_conns s) (rp_auths s) (mset b p'' (rp_peers s)) ch (rp_held s) (mset (rp_next_rid s) v (rp_os s)) (rp_next_rid s + 1) (rp_next_cid s) t rx f (rp_dropped s)) l).
      { intros v rx ch Hch. apply (rel_other _ _ _ s); auto; cbn.
        - intros r Hr. apply mget_set_ne. intros ->. apply (r_lt _ _ _ _ _ R) in Hr. lia.
        - lia.
        - apply Oth; [lia|]. intros _. lia.
        - apply R.
        - intros r Hr. apply in_app_or in Hr. destruct Hr as [Hr|Hr]; [|auto]. pose proof (r_held _ _ _ _ _ R r (in_or_app _ _ _ (or_introl Hr))). lia. }
      assert (Hc : forall r, In r (map q_rid (rp_chan s)) -> r < rp_next_rid s + 1) by (intros r Hr; pose proof (r_held _ _ _ _ _ R r (in_or_app _ _ _ (or_intror Hr))); lia).
      assert (Lv : forall y, (rank (rp_next_rid s) RF = None -> client_view c RF [y] = []) -> requests_of c [y] = [] -> rp_next_rid s + 1 <= rp_next_rid s' ->
        client_view c RF (o1 ++ [RIncoming (pr_cid q) b (rp_next_rid s) m; y]) = [] /\ requests_of c (o1 ++ [RIncoming (pr_cid q) b (rp_next_rid s) m; y]) = []).
      { intros y Hy Hq Hn. rewrite view_app, reqs_app, V1, V2. change [RIncoming (pr_cid q) b (rp_next_rid s) m; y] with ([RIncoming (pr_cid q) b (rp_next_rid s) m] ++ [y]). rewrite view_app, reqs_app, (Hy (Rk Hn)), Hq.
        cbn. rewrite (proj2 (N.eqb_neq _ _)) by exact Nc. auto. }
      destruct (try_decompress D (rr_ctype m) (rr_payload m)) as [x|]; [destruct (rp_dropped s || _)|]; injection A as <- <-.
      * destruct (Lv (RLost (rp_next_rid s))) as (X1 & X2); [intros H; cbn; now rewrite H|reflexivity|cbn; lia|]. split; [exact X1|]. split; [exact X2|]. apply Kl; auto.
      * destruct (Lv (RYield (mkReq b (rp_next_rid s) x))) as (X1 & X2); [intros H; cbn; now rewrite H|reflexivity|cbn; lia|]. split; [exact X1|]. split; [exact X2|]. apply Kl. intros r Hr. rewrite map_app in Hr. apply in_app_or in Hr. destruct Hr as [Hr|[<-|[]]]; [auto|cbn; lia].
      * destruct (Lv (RLost (rp_next_rid s))) as (X1 & X2); [intros H; cbn; now rewrite H|reflexivity|cbn; lia|]. split; [exact X1|]. split; [exact X2|]. apply Kl; auto.
    + injection A as <- <-. split; [exact V1|]. split; [exact V2|]. apply Plain. discriminate.
    + injection A as <- <-. rewrite view_app, reqs_app, V1, V2. cbn [client_view requests_of flat_map app]. rewrite (proj2 (N.eqb_neq _ _)) by exact Nc. split; [reflexivity|]. split; [reflexivity|]. apply (rel_other _ _ _ _ _ _ (Plain ltac:(discriminate))); auto; cbn; [lia|apply (r_oth _ _ _ _ _ (Plain ltac:(discriminate)))|apply R|apply R].
    + injection A as <- <-. split; [exact V1|]. split; [exact V2|]. apply Plain. discriminate.
  - assert (Kd3 : NoDup (mkeys (mdel b (rp_peers s)))) by (apply nodup_del, Kd). injection A as <- <-. split; [reflexivity|]. split; [reflexivity|]. apply (rel_other _ _ _ s); auto; cbn; [apply mget_del_ne; congruence|lia| |apply R|apply R].
    intros k u Hk. rewrite mget_del. destruct (eq_dec k b); [discriminate|]. intros Gk. exact (oth_keep _ _ _ _ _ _ R (N.le_refl _) k u Hk Gk).
Qed.

(** The client's own turn. *)
Lemma own_turn c RF R0 R1 s l e s' o : rel c RF R0 s l -> RF = R0 ++ requests_of c o ++ R1 -> act s (VPeer a e) = (s', o) ->
  (forall a' r m, In (RIncoming c a' r m) o -> In (RLost r) o -> try_decompress D (rr_ctype m) (rr_payload m) = None) ->
  exists l', lact l (CTurn (p_flush_ok e) (p_ready e) (p_send e) (option_map (fun r => rank r RF) (p_pref e)) (p_next e)) = (l', client_view c RF o) /\ rel c RF (R0 ++ requests_of c o) s' l'.
Proof using.
  intros R E A Ov. cbn [rp_act] in A. unfold rp_peer in A. pose proof (r_peer _ _ _ _ _ R) as Rp. cbn [lact]. destruct (mget a (rp_peers s)) as [p|] eqn:G.
  2:{ injection A as <- <-. rewrite Rp. cbn [requests_of client_view flat_map] in *. rewrite app_nil_r. eauto. }
  destruct Rp as (Lp & Hc & Hl). rewrite Lp. change (pr_open (pmap RF p)) with (pr_open p). destruct (pr_open p) eqn:Op.
  2:{ injection A as <- <-. cbn [requests_of client_view flat_map] in *. rewrite app_nil_r. eexists. split; [reflexivity|]. destruct R as [P O N L Ot C H Kd]. constructor; auto; cbn [rp_with_peers rp_peers l_peer].
      - now rewrite mget_del_eq.
      - intros b q Hb. rewrite mget_del. destruct (eq_dec b a); [contradiction|]. exact (Ot b q Hb).
      - apply nodup_del, Kd. }
  destruct e as [fl rd sd pref nx]. cbn [p_flush_ok p_ready p_send p_pref p_next].
  destruct (peer_iter min co (mkPenv fl rd sd pref nx) (rp_os s) (rp_next_rid s) p (rp_tx s) (rp_failed s)) as [[[[p' t] f] o1] r] eqn:It.
  assert (E0 : exists R2, RF = R0 ++ R2) by (rewrite E; eauto). destruct E0 as (R2 & E0).
  assert (Rid : (exists m, r = PReq m) -> rank (rp_next_rid s) RF = Some (l_next l) /\ rho RF (rp_next_rid s) = l_next l).
  { intros (m & ->). assert (Hq : requests_of c o = [rp_next_rid s]).
    { destruct (iter_frame _ _ _ _ _ _ _ _ _ _ _ It) as (_ & _ & F3). destruct (quiet_view (c + 1) RF o1) as (_ & _); [intros x Hx; specialize (F3 x Hx); destruct x; try contradiction; lia|].
      assert (Z : requests_of c o1 = []). { clear - F3. induction o1 as [|x o1 IH]; [reflexivity|]. unfold requests_of in *. cbn [flat_map]. rewrite IH by (intros y Hy; apply F3; now right). specialize (F3 x (or_introl eq_refl)). destruct x; try contradiction; reflexivity. }
      unfold rp_on_request in A. cbv zeta in A. destruct (try_decompress D (rr_ctype m) (rr_payload m)); [destruct (_ || _)|]; injection A as <- <-; rewrite reqs_app, Z; cbn; rewrite Hc, N.eqb_refl; reflexivity. }
    assert (X : rank (rp_next_rid s) RF = Some (blen R0)). { rewrite E, Hq. cbn [app]. apply rank_new. intros Hi. apply (r_lt _ _ _ _ _ R) in Hi. lia. }
    rewrite (r_next _ _ _ _ _ R). unfold rho. rewrite X. auto. }
  destruct (iter_map c RF R0 R2 E0 fl rd sd pref (option_map (fun k => match rank k RF with Some j => j | None => l_next l end) pref) nx (rp_os s) (l_os l) (rp_next_rid s) (l_next l) p (rp_tx s) (rp_failed s) 0 0 p' t f o1 r) as (t2 & f2 & o2 & I2 & V & C' & Q & Pe & On & Op'); auto.
  1: exact (r_os _ _ _ _ _ R).
  1: { destruct pref as [k|]; [|exact I]. cbn [option_map]. intros r0 Hr. apply (pref_ok RF R0 R2 E0); [exact (r_next _ _ _ _ _ R)|exact Hr]. }
  1: { intros H. exact (proj2 (Rid H)). }
  replace (option_map (fun f0 => match f0 with Some k => k | None => l_next l end) (option_map (fun r0 => rank r0 RF) pref)) with (option_map (fun k => match rank k RF with Some j => j | None => l_next l end) pref) by (destruct pref; reflexivity).
  rewrite I2. cbn [pmap pr_cid].
  assert (Same : (forall m, r <> PReq m) -> forall ac p'' tx2 fa2, pr_cid p'' = c -> (forall x, In x (pr_pending p'') -> In x (pr_pending p')) ->
     rel c RF R0 (mkRp ac (rp_conns s) (rp_auths s) (mset a p'' (rp_peers s)) (rp_chan s) (rp_held s) (rp_os s) (rp_next_rid s) (rp_next_cid s) tx2 (rp_rx s) fa2 (rp_dropped s)) (mkLoc (Some (pmap RF p'')) (l_os l) (l_next l))).
  { intros Hr ac p'' tx2 fa2 Hc2 Hp2. destruct R as [P O N L Ot C H Kd]. constructor; cbn [rp_peers rp_os rp_next_rid rp_conns rp_auths rp_next_cid rp_held rp_chan l_peer l_os l_next]; auto.
    - rewrite mget_set_eq. split; [reflexivity|]. split; [exact Hc2|]. intros x Hx. destruct (Pe x (Hp2 x Hx)) as [K|((m & K) & _)]; [exact K|destruct (Hr m K)].
    - intros b q Hb. rewrite mget_set_ne by congruence. exact (Ot b q Hb).
    - apply nodup_set, Kd. }
  destruct r as [|m| | |].
  - injection A as <- <-. rewrite Q, app_nil_r. rewrite V. eexists. split; [reflexivity|]. apply Same; auto. discriminate.
  - destruct (Rid (ex_intro _ m eq_refl)) as (Rk & Rh). unfold rp_on_request in A. cbv zeta in A. cbn [rp_next_rid rp_active rp_conns rp_auths rp_peers rp_chan rp_held rp_os rp_next_cid rp_tx rp_rx rp_failed rp_dropped] in A.
    assert (Kl : forall v rx ch, (forall r, In r (map q_rid ch) -> r < rp_next_rid s + 1) ->
      rel c RF (R0 ++ [rp_next_rid s]) (mkRp (rp_active s) (rp_conns s) (rp_auths s) (mset a p' (rp_peers s)) ch (rp_held s) (mset (rp_next_rid s) v (rp_os s)) (rp_next_rid s + 1) (rp_next_cid s) t rx f (rp_dropped s)) (mkLoc (Some (pmap RF p')) (mset (l_next l) v (l_os l)) (l_next l + 1))).
    { intros v rx ch Hch. pose proof R as [P O N L Ot C H Kd]. constructor; cbn [rp_peers rp_os rp_next_rid rp_conns rp_auths rp_next_cid rp_held rp_chan l_peer l_os l_next].
      - rewrite mget_set_eq. split; [reflexivity|]. split; [exact C'|]. intros x Hx. apply in_or_app. destruct (Pe x Hx) as [K|(_ & K)]; [auto|right; left; auto].
      - intros r Hr. apply in_app_or in Hr. destruct Hr as [Hr|[<-|[]]].
        + destruct (rho_in RF R0 R2 E0 r Hr) as (_ & Lt). rewrite !mget_set_ne; [apply O, Hr| |]; [intros K; apply L in Hr; lia|intros K; rewrite K, N in Lt; lia].
        + rewrite Rh, !mget_set_eq. reflexivity.
      - rewrite N. unfold blen. rewrite app_length. cbn [length]. lia.
      - intros r Hr. apply in_app_or in Hr. destruct Hr as [Hr|[<-|[]]]; [apply L in Hr; lia|lia].
      - intros b q Hb. rewrite mget_set_ne by congruence. intros Gb. destruct (Ot b q Hb Gb) as (X1 & X2). split; [exact X1|]. intros x Hx. destruct (X2 x Hx). split; [|lia]. intros Hi. apply in_app_or in Hi. destruct Hi as [Hi|[Hi|[]]]; [contradiction|lia].
      - exact C.
      - intros r Hr. apply in_app_or in Hr. destruct Hr as [Hr|Hr]; [|auto]. specialize (H r (in_or_app _ _ _ (or_introl Hr))). lia.
      - apply nodup_set, Kd. }
    assert (Hch : forall r, In r (map q_rid (rp_chan s)) -> r < rp_next_rid s + 1) by (intros r Hr; pose proof (r_held _ _ _ _ _ R r (in_or_app _ _ _ (or_intror Hr))); lia).
    destruct (try_decompress D (rr_ctype m) (rr_payload m)) as [x|] eqn:Td; [destruct (rp_dropped s || _)|]; injection A as <- <-.
    + exfalso. specialize (Ov a (rp_next_rid s) m). rewrite Td in Ov. rewrite Hc in Ov. discriminate Ov; apply in_or_app; right; cbn; auto.
    + rewrite view_app, reqs_app, Q, V. cbn [requests_of client_view flat_map app q_rid q_source q_msg]. rewrite Hc, N.eqb_refl, Rk. cbn [app]. eexists. split; [reflexivity|]. apply Kl. intros r Hr. rewrite map_app in Hr. apply in_app_or in Hr. destruct Hr as [Hr|[<-|[]]]; [auto|cbn; lia].
    + rewrite view_app, reqs_app, Q, V. cbn [requests_of client_view flat_map app]. rewrite Hc, N.eqb_refl, Rk. cbn [app]. eexists. split; [reflexivity|]. apply Kl; auto.
  - injection A as <- <-. rewrite Q, app_nil_r. rewrite V. eexists. split; [reflexivity|]. apply Same; auto. discriminate.
  - injection A as <- <-. rewrite view_app, reqs_app, Q, V. cbn [requests_of client_view flat_map app]. rewrite Hc, N.eqb_refl, !app_nil_r. eexists. split; [reflexivity|]. refine (Same _ _ (mkPeer (pr_cid p') [] [] false false) t f C' _); [discriminate|intros x []].
  - injection A as <- <-. rewrite Q, app_nil_r. rewrite V. eexists. split; [reflexivity|]. apply Same; auto. discriminate.
Qed.

(** Everything else. *)
Lemma in_removed {A} (l : list A) k x : In x (firstn k l ++ skipn (S k) l) -> In x l. Proof using. apply in_remove_nth. Qed.
Lemma insert_rel c RF R0 s l s0 cid b s' o : rel c RF R0 s l -> rp_insert s0 cid b = (s', o) -> b <> a -> cid <> c -> rp_peers s0 = rp_peers s -> rp_os s0 = rp_os s -> rp_next_rid s0 = rp_next_rid s -> rp_next_cid s0 = rp_next_cid s ->
  rp_held s0 = rp_held s -> rp_chan s0 = rp_chan s -> (forall x, In x (rp_conns s0) -> In x (rp_conns s)) -> (forall x, In x (map fst (rp_auths s0)) -> In x (map fst (rp_auths s))) -> rel c RF R0 s' l /\ client_view c RF o = [] /\ requests_of c o = [].
Proof using.
  intros R I Hb Hc E1 E2 E3 E4 E5 E6 E7 E8. pose proof (r_keys _ _ _ _ _ R) as Kd. pose proof (r_cid _ _ _ _ _ R) as (C1 & C2 & C3). unfold rp_insert in I. injection I as <- <-. split.
  - apply (rel_other _ _ _ s); auto; cbn [rp_with_peers rp_peers rp_os rp_next_rid rp_next_cid rp_conns rp_auths rp_held rp_chan]; rewrite ?E1, ?E2, ?E3, ?E4, ?E5, ?E6; auto; [apply mget_set_ne; congruence|lia| | |apply R|apply nodup_set, Kd].
    + intros k u Hk. rewrite mget_set. destruct (eq_dec k b) as [->|]; [intros [= <-]; cbn; split; [intros _; exact Hc|intros x []]|]. intros Gk. exact (oth_keep _ _ _ _ _ _ R (N.le_refl _) k u Hk Gk).
    + split; [intros H; apply C1; auto|split; [intros H; apply C2; auto|exact C3]].
  - apply quiet_view. intros x [<-|Hx]; [exact I|]. rewrite E1 in Hx. destruct (mget b (rp_peers s)) as [p|]; [|destruct Hx]. destruct (pr_open p); [|destruct Hx]. destruct Hx as [<-|[]]. exact I.
Qed.

Ltac keeps R := try (first [reflexivity | intros; reflexivity | apply N.le_refl | exact (r_oth _ _ _ _ _ R) | exact (r_held _ _ _ _ _ R) | exact (r_keys _ _ _ _ _ R) | exact (r_cid _ _ _ _ _ R)]).
Lemma other_step c RF R0 R1 s l ev s' o : rel c RF R0 s l -> RF = R0 ++ R1 -> (forall r, In r R1 -> rp_next_rid s' <= r) -> act s ev = (s', o) -> (forall c', ~ In (ROpen c' a) o) -> ~ In RSocketDropped o ->
  (forall r x, ev = VRespond r x -> In r (rp_held s)) -> (forall r, ev = VDiscard r -> In r (rp_held s)) -> client_events a RF [ev] = [] ->
  client_view c RF o = [] /\ requests_of c o = [] /\ rel c RF R0 s' l.
Proof using.
  intros R E Hge A No Nd Hr Hd Ce. pose proof (r_keys _ _ _ _ _ R) as Kd. pose proof (r_cid _ _ _ _ _ R) as (C1 & C2 & C3). destruct ev as [b e|k i ok|k res| | |r x|r|].
  - cbn [client_events flat_map app] in Ce. destruct (N.eqb_spec b a); [discriminate|]. exact (other_turn c RF R0 R1 s l b e s' o R E Hge n A).
  - cbn [rp_act] in A. unfold rp_auth in A. destruct (nth_error (rp_auths s) k) as [[cid b]|] eqn:Nk; [|injection A as <- <-; auto]. destruct auth as [au|]; [|injection A as <- <-; auto].
    assert (Hcid : cid <> c) by (intros ->; apply C2; apply nth_error_In in Nk; apply (in_map fst) in Nk; exact Nk).
    set (s1 := mkRp (rp_active s) (rp_conns s) (firstn k (rp_auths s) ++ skipn (S k) (rp_auths s)) (rp_peers s) (rp_chan s) (rp_held s) (rp_os s) (rp_next_rid s) (rp_next_cid s) (rp_tx s) (rp_rx s) (rp_failed s) (rp_dropped s)) in *.
    assert (Hau : forall x, In x (map fst (rp_auths s1)) -> In x (map fst (rp_auths s))) by (intros x Hx; apply in_map_iff in Hx; destruct Hx as (y & <- & Hy); apply in_removed in Hy; apply in_map; exact Hy).
    assert (Rs : forall n, rel c RF R0 (rp_with_active s1 n) l).
    { intros n. apply (rel_other _ _ _ s); [exact R|..]; keeps R; cbn. split; [exact C1|split; [intros H; apply C2; auto|exact C3]]. }
    destruct (auth_server au ok i) as [[[id| | |] w] rest].
    + destruct (rp_insert s1 cid b) as [s2 o2] eqn:I. injection A as <- <-. assert (b <> a) by (intros ->; unfold rp_insert in I; injection I as <- <-; apply (No cid); cbn; auto).
      destruct (insert_rel c RF R0 s l s1 cid b s2 o2 R I) as (X1 & X2 & X3); auto.
    + injection A as <- <-. destruct (quiet_view c RF [RAuthReply cid w; RGone cid]) as (X1 & X2); [intros x [<-|[<-|[]]]; auto|]. split; [exact X1|]. split; [exact X2|]. apply Rs.
    + injection A as <- <-. split; [reflexivity|]. split; [reflexivity|]. exact (Rs (rp_active s)).
    + injection A as <- <-. auto.
  - cbn [rp_act] in A. unfold rp_conn in A. destruct (nth_error (rp_conns s) k) as [cid|] eqn:Nk; [|injection A as <- <-; auto].
    assert (Hcid : cid <> c) by (intros ->; apply C1; apply nth_error_In in Nk; exact Nk).
    set (s1 := mkRp (rp_active s) (firstn k (rp_conns s) ++ skipn (S k) (rp_conns s)) (rp_auths s) (rp_peers s) (rp_chan s) (rp_held s) (rp_os s) (rp_next_rid s) (rp_next_cid s) (rp_tx s) (rp_rx s) (rp_failed s) (rp_dropped s)) in *.
    assert (Hco : forall x, In x (rp_conns s1) -> In x (rp_conns s)) by (intros x Hx; exact (in_removed _ _ _ Hx)).
    assert (Rs : rel c RF R0 (rp_decr s1) l).
    { apply (rel_other _ _ _ s); [exact R|..]; keeps R; cbn. split; [intros H; apply C1; auto|split; [exact C2|exact C3]]. }
    destruct res as [[b|]|].
    + destruct auth.
      * injection A as <- <-. split; [reflexivity|]. split; [reflexivity|]. apply (rel_other _ _ _ s); [exact R|..]; keeps R; cbn. split; [intros H; apply C1; auto|]. split; [|exact C3]. rewrite map_app. intros H. apply in_app_or in H. destruct H as [H|[H|[]]]; [auto|cbn in H; congruence].
      * destruct (rp_insert s1 cid b) as [s2 o2] eqn:I. injection A as <- <-. assert (b <> a) by (intros ->; unfold rp_insert in I; injection I as <- <-; apply (No cid); cbn; auto).
        destruct (insert_rel c RF R0 s l s1 cid b s2 o2 R I) as (X1 & X2 & X3); auto.
    + injection A as <- <-. destruct (quiet_view c RF [RGone cid]) as (X1 & X2); [intros x [<-|[]]; auto|]. auto.
    + injection A as <- <-. destruct (quiet_view c RF [RGone cid]) as (X1 & X2); [intros x [<-|[]]; auto|]. auto.
  - cbn [rp_act] in A. unfold rp_accept in A. destruct (match max with Some m => m <=? rp_active s | None => false end); injection A as <- <-; [auto|]. split; [reflexivity|]. split; [reflexivity|].
    apply (rel_other _ _ _ s); [exact R|..]; keeps R; cbn. split; [|split; [exact C2|lia]]. intros H. apply in_app_or in H. destruct H as [H|[H|[]]]; [auto|lia].
  - cbn [rp_act] in A. destruct (rp_chan s) as [|q rest] eqn:Ch; injection A as <- <-; [auto|]. split; [reflexivity|]. split; [reflexivity|].
    apply (rel_other _ _ _ s); [exact R|..]; keeps R; cbn. intros r Hr0. apply (r_held _ _ _ _ _ R). rewrite Ch. cbn [map]. destruct Hr0 as [<-|Hr0]; apply in_or_app; [right; now left|]. apply in_app_or in Hr0. destruct Hr0; [auto|right; now right].
  - cbn [rp_act] in A. rewrite (proj2 (smem_true r (rp_held s)) (Hr r x eq_refl)) in A. cbn [client_events flat_map app] in Ce. destruct (rank r RF) eqn:Rk; [discriminate|].
    assert (Nr : ~ In r R0) by (apply rank_none in Rk; rewrite E in Rk; intros H; apply Rk, in_or_app; auto).
    assert (K : forall v, rel c RF R0 (rp_set_app s (rp_chan s) (sdel r (rp_held s)) (mset r v (rp_os s)) (rp_dropped s)) l).
    { intros v. apply (rel_other _ _ _ s); [exact R|..]; keeps R; cbn; [intros k Hk; apply mget_set_ne; congruence|]. intros k Hk. apply (r_held _ _ _ _ _ R). apply in_app_or in Hk. apply in_or_app. destruct Hk as [Hk|Hk]; [left; apply in_remove in Hk; tauto|auto]. }
    destruct (os_receiver s r); injection A as <- <-; cbn [client_view requests_of flat_map app]; rewrite Rk; auto.
  - cbn [rp_act] in A. rewrite (proj2 (smem_true r (rp_held s)) (Hd r eq_refl)) in A. cbn [client_events flat_map app] in Ce. destruct (rank r RF) eqn:Rk; [discriminate|].
    assert (Nr : ~ In r R0) by (apply rank_none in Rk; rewrite E in Rk; intros H; apply Rk, in_or_app; auto).
    injection A as <- <-. cbn [client_view requests_of flat_map app]. rewrite Rk. split; [reflexivity|]. split; [reflexivity|].
    apply (rel_other _ _ _ s); [exact R|..]; keeps R; cbn; [intros k Hk; apply mget_set_ne; congruence|]. intros k Hk. apply (r_held _ _ _ _ _ R). apply in_app_or in Hk. apply in_or_app. destruct Hk as [Hk|Hk]; [left; apply in_remove in Hk; tauto|auto].
  - cbn [rp_act] in A. injection A as <- <-. destruct Nd. now left.
Qed.

(** The application answers or drops one of the client's requests. *)
Lemma own_answer c RF R0 R1 s l r v (k : N) : rel c RF R0 s l -> RF = R0 ++ R1 -> (forall r, In r R1 -> rp_next_rid s <= r) -> In r (rp_held s) -> rank r RF = Some k ->
  In r R0 /\ rho RF r = k /\ rel c RF R0 (rp_set_app s (rp_chan s) (sdel r (rp_held s)) (mset r v (rp_os s)) (rp_dropped s)) (mkLoc (l_peer l) (mset k v (l_os l)) (l_next l)) /\
  os_receiver s r = match l_peer l with Some p => existsb (fun e => fst e =? k) (pr_pending p) | None => false end.
Proof using.
  intros R E Hge Hh Rk. assert (Hi : In r R0).
  { assert (Hf : In r RF) by (apply rank_some in Rk; destruct Rk as (X & _); apply nth_error_In in X; exact X). rewrite E in Hf. apply in_app_or in Hf. destruct Hf as [|Hf]; [assumption|]. apply Hge in Hf. pose proof (r_held _ _ _ _ _ R r (in_or_app _ _ _ (or_introl Hh))). lia. }
  assert (Hk : rho RF r = k) by (unfold rho; now rewrite Rk). split; [exact Hi|]. split; [exact Hk|]. destruct R as [P O N L Ot C H Kd]. split.
  - constructor; cbn [rp_set_app rp_peers rp_os rp_next_rid rp_conns rp_auths rp_next_cid rp_held rp_chan l_peer l_os l_next]; auto.
    + intros r' Hr'. rewrite !mget_set. destruct (eq_dec (rho RF r') k) as [Q|Q], (eq_dec r' r) as [Q2|Q2]; auto; [|congruence]. destruct Q2. apply (rho_inj RF R0 R1 E); congruence.
    + intros r' Hr'. apply H. apply in_app_or in Hr'. apply in_or_app. destruct Hr' as [Hk2|Hk2]; [left; apply in_remove in Hk2; tauto|auto].
  - unfold os_receiver. destruct (existsb _ (rp_peers s)) eqn:X.
    + apply existsb_exists in X. destruct X as ([b q] & Hq & X). cbn [snd] in X. apply existsb_exists in X. destruct X as (e & He & X). apply N.eqb_eq in X. apply (in_mget b q _ Kd) in Hq.
      destruct (N.eq_dec b a) as [->|Nb]; [|destruct (Ot b q Nb Hq) as (_ & Q); destruct (Q e He); congruence]. rewrite Hq in P. destruct P as (-> & _ & _). symmetry. apply existsb_exists. exists (rpe RF e). split; [apply in_map, He|]. apply N.eqb_eq. unfold rpe. cbn [fst]. congruence.
    + destruct (mget a (rp_peers s)) as [p|] eqn:G; [destruct P as (-> & _ & Pp)|rewrite P; reflexivity]. symmetry. destruct (existsb (fun e => fst e =? k) _) eqn:Y; [|reflexivity]. exfalso.
      apply existsb_exists in Y. destruct Y as (e & He & Y). apply N.eqb_eq in Y. cbn [pmap pr_pending] in He. apply in_map_iff in He. destruct He as (e0 & <- & He). cbn [rpe fst] in Y. assert (fst e0 = r) by (apply (rho_inj RF R0 R1 E); [apply Pp, He|exact Hi|congruence]).
      assert (X2 : existsb (fun ap => existsb (fun e => fst e =? r) (pr_pending (snd ap))) (rp_peers s) = true); [|congruence]. apply existsb_exists. exists (a, p). split; [apply mget_in, G|]. cbn [snd]. apply existsb_exists. exists e0. split; [exact He|now apply N.eqb_eq].
Qed.

Lemma act_rid s ev s' o : act s ev = (s', o) -> rp_next_rid s <= rp_next_rid s' /\ forall c b r m, In (RIncoming c b r m) o -> r = rp_next_rid s /\ exists e q, ev = VPeer b e /\ mget b (rp_peers s) = Some q /\ pr_open q = true /\ pr_cid q = c.
Proof using.
  destruct ev as [b e|k i ok|k res| | |r x|r|]; cbn [rp_act].
  - unfold rp_peer. destruct (mget b (rp_peers s)) as [q|] eqn:G; [|intros [= <- <-]; split; [lia|intros ? ? ? ? []]]. destruct (pr_open q) eqn:Oq; [|intros [= <- <-]; split; [cbn; lia|intros ? ? ? ? []]].
    destruct (peer_iter min co e (rp_os s) (rp_next_rid s) q (rp_tx s) (rp_failed s)) as [[[[p' t] f] o1] r] eqn:It. destruct (iter_frame _ _ _ _ _ _ _ _ _ _ _ It) as (_ & _ & F3).
    assert (Z : forall c b r m, ~ In (RIncoming c b r m) o1) by (intros c b' r0 m H; exact (F3 _ H)).
    destruct r as [|m| | |]; try (intros [= <- <-]; split; [cbn; lia|]; intros c b' r0 m0 H; try (apply in_app_or in H; destruct H as [H|[H|[]]]; [|discriminate]); destruct (Z _ _ _ _ H)).
    unfold rp_on_request. cbv zeta. destruct (try_decompress D (rr_ctype m) (rr_payload m)); [destruct (_ || _)|]; intros [= <- <-]; (split; [cbn; lia|]); intros c b' r0 m0 H; apply in_app_or in H;
      (destruct H as [H|[H|[H|[]]]]; [destruct (Z _ _ _ _ H)|injection H as <- <- <- _; split; [reflexivity|]; exists e, q; auto|discriminate]).
  - unfold rp_auth. destruct (nth_error (rp_auths s) k) as [[cid b]|]; [|intros [= <- <-]; split; [lia|intros ? ? ? ? []]]. destruct auth as [au|]; [|intros [= <- <-]; split; [lia|intros ? ? ? ? []]].
    destruct (auth_server au ok i) as [[[id| | |] w] rest]; cbn; intros [= <- <-]; (split; [cbn; lia|]); intros c b' r m H; try (repeat destruct H as [H|H]; discriminate || contradiction).
    destruct H as [H|[H|[H|H]]]; try discriminate. destruct (mget b (rp_peers s)) as [q|]; [|destruct H]. destruct (pr_open q); [destruct H as [H|[]]; discriminate|destruct H].
  - unfold rp_conn. destruct (nth_error (rp_conns s) k) as [cid|]; [|intros [= <- <-]; split; [lia|intros ? ? ? ? []]]. destruct res as [[b|]|]; [destruct auth|..]; cbn; intros [= <- <-]; (split; [cbn; lia|]); intros c b' r m H; try (repeat destruct H as [H|H]; discriminate || contradiction).
    destruct H as [H|H]; [discriminate|]. destruct (mget b (rp_peers s)) as [q|]; [|destruct H]. destruct (pr_open q); [destruct H as [H|[]]; discriminate|destruct H].
  - unfold rp_accept. destruct (match max with Some m => m <=? rp_active s | None => false end); intros [= <- <-]; (split; [cbn; lia|]); intros c b r m [H|[]]; discriminate.
  - destruct (rp_chan s); intros [= <- <-]; (split; [cbn; lia|]); [intros ? ? ? ? []|intros c b r0 m [H|[]]; discriminate].
  - destruct (smem r (rp_held s)); [destruct (os_receiver s r)|]; intros [= <- <-]; (split; [cbn; lia|]); intros c b r9 m H; try (destruct H as [H|[]]; discriminate); destruct H.
  - destruct (smem r (rp_held s)); intros [= <- <-]; (split; [cbn; lia|]); intros c b r9 m H; try (destruct H as [H|[]]; discriminate); destruct H.
  - intros [= <- <-]. split; [cbn; lia|]. intros c b r m [H|H]; [discriminate|]. apply in_map_iff in H. destruct H as (q & H & _). discriminate.
Qed.
Lemma run_rid c : forall evs s s' L, run s evs = (s', L) -> forall r, In r (requests_of c L) -> rp_next_rid s <= r.
Proof using.
  induction evs as [|ev evs IH]; intros s s' L; cbn [rp_run]; [intros [= <- <-] r []|]. destruct (act s ev) as [s1 o1] eqn:A. destruct (run s1 evs) as [s2 o2] eqn:B. intros [= <- <-] r. rewrite reqs_app. intros H. destruct (act_rid _ _ _ _ A) as (Le & Q).
  apply in_app_or in H. destruct H as [H|H]; [|specialize (IH _ _ _ B r H); lia]. unfold requests_of in H. apply in_flat_map in H. destruct H as (x & Hx & H). destruct x; try destruct H. destruct (cid =? c); [|destruct H]. destruct H as [<-|[]]. destruct (Q _ _ _ _ Hx) as (-> & _). lia.
Qed.

Lemma sim_run c RF : forall evs R0 s l s' L, rel c RF R0 s l -> run s evs = (s', L) -> RF = R0 ++ requests_of c L -> (forall c', ~ In (ROpen c' a) L) ->
  (forall a' r m, In (RIncoming c a' r m) L -> In (RLost r) L -> try_decompress D (rr_ctype m) (rr_payload m) = None) -> ~ In RSocketDropped L ->
  (forall before r x after, evs = before ++ VRespond r x :: after -> In r (rp_held (fst (run s before)))) ->
  (forall before r after, evs = before ++ VDiscard r :: after -> In r (rp_held (fst (run s before)))) ->
  snd (lrun l (client_events a RF evs)) = client_view c RF L.
Proof using.
  induction evs as [|ev evs IH]; intros R0 s l s' L R Rn E No Ov Nd Hr Hd; cbn [rp_run] in Rn; [injection Rn as <- <-; reflexivity|].
  destruct (act s ev) as [s1 o1] eqn:A. destruct (run s1 evs) as [s2 o2] eqn:B. injection Rn as <- <-. rewrite reqs_app, app_assoc in E. rewrite view_app.
  assert (Hge : forall r, In r (requests_of c o2) -> rp_next_rid s1 <= r) by exact (run_rid c _ _ _ _ B).
  assert (N1 : forall c', ~ In (ROpen c' a) o1) by (intros c' H; apply (No c'), in_or_app; auto). assert (N2 : forall c', ~ In (ROpen c' a) o2) by (intros c' H; apply (No c'), in_or_app; auto).
  assert (O1 : forall a' r m, In (RIncoming c a' r m) o1 -> In (RLost r) o1 -> try_decompress D (rr_ctype m) (rr_payload m) = None) by (intros a' r m H1 H2; apply (Ov a' r m); apply in_or_app; auto).
  assert (O2 : forall a' r m, In (RIncoming c a' r m) o2 -> In (RLost r) o2 -> try_decompress D (rr_ctype m) (rr_payload m) = None) by (intros a' r m H1 H2; apply (Ov a' r m); apply in_or_app; auto).
  assert (D1 : ~ In RSocketDropped o1) by (intros H; apply Nd, in_or_app; auto). assert (D2 : ~ In RSocketDropped o2) by (intros H; apply Nd, in_or_app; auto).
  assert (H1 : forall r x, ev = VRespond r x -> In r (rp_held s)) by (intros r x ->; exact (Hr [] r x evs eq_refl)). assert (H2 : forall r, ev = VDiscard r -> In r (rp_held s)) by (intros r ->; exact (Hd [] r evs eq_refl)).
  assert (H3 : forall before r x after, evs = before ++ VRespond r x :: after -> In r (rp_held (fst (run s1 before)))).
  { intros before r x after ->. specialize (Hr (ev :: before) r x after eq_refl). cbn [rp_run] in Hr. rewrite A in Hr. destruct (run s1 before) as [u v]. exact Hr. }
  assert (H4 : forall before r after, evs = before ++ VDiscard r :: after -> In r (rp_held (fst (run s1 before)))).
  { intros before r after ->. specialize (Hd (ev :: before) r after eq_refl). cbn [rp_run] in Hd. rewrite A in Hd. destruct (run s1 before) as [u v]. exact Hd. }
  assert (Ni : client_events a RF [ev] = [] -> requests_of c o1 = []).
  { intros Ce. destruct (requests_of c o1) as [|r0 q0] eqn:Q; [reflexivity|]. exfalso. assert (Hi : In r0 (requests_of c o1)) by (rewrite Q; now left). unfold requests_of in Hi. apply in_flat_map in Hi. destruct Hi as (x & Hx & Hi). destruct x; try destruct Hi.
    destruct (N.eqb_spec cid c) as [->|]; [|destruct Hi]. destruct (proj2 (act_rid _ _ _ _ A) _ _ _ _ Hx) as (_ & e & q & -> & G & Oq & Hq). cbn [client_events flat_map app] in Ce. destruct (N.eqb_spec addr a) as [|Hne]; [discriminate|]. destruct (r_oth _ _ _ _ _ R _ _ Hne G) as (K & _). exact (K Oq Hq). }
  assert (Ot : client_events a RF [ev] = [] -> exists l', lrun l (client_events a RF [ev]) = (l', client_view c RF o1) /\ rel c RF (R0 ++ requests_of c o1) s1 l').
  { intros Ce. specialize (Ni Ce). rewrite Ni, app_nil_r in E. destruct (other_step c RF R0 (requests_of c o2) s l ev s1 o1) as (V & Q & R'); auto. exists l. rewrite Ce. cbn [lrun]. rewrite V, Q, app_nil_r. auto. }
  assert (St : exists l', lrun l (client_events a RF [ev]) = (l', client_view c RF o1) /\ rel c RF (R0 ++ requests_of c o1) s1 l').
  { destruct ev as [b e|k i ok|k res| | |r x|r|]; try (apply Ot; reflexivity).
    - destruct (N.eqb_spec b a) as [->|Hb]; [|apply Ot; cbn; now rewrite (proj2 (N.eqb_neq _ _)) by exact Hb]. cbn [client_events flat_map]. rewrite N.eqb_refl. cbn [app]. rewrite <- app_assoc in E.
      destruct (own_turn c RF R0 (requests_of c o2) s l e s1 o1 R E A O1) as (l' & X1 & X2). exists l'. cbn [lrun]. rewrite X1, app_nil_r. auto.
    - destruct (rank r RF) as [k|] eqn:Rk; [|apply Ot; cbn; now rewrite Rk]. cbn [client_events flat_map]. rewrite Rk. cbn [app]. cbn [rp_act] in A. rewrite (proj2 (smem_true r (rp_held s)) (H1 r x eq_refl)) in A.
      assert (K : s1 = rp_set_app s (rp_chan s) (sdel r (rp_held s)) (mset r (if os_receiver s r then OsSent x else OsDropped) (rp_os s)) (rp_dropped s) /\ o1 = [RResponded r x (os_receiver s r)]) by (destruct (os_receiver s r); injection A as <- <-; auto).
      destruct K as (K1 & ->). rewrite K1. clear A. cbn [requests_of flat_map app] in *. rewrite app_nil_r in *.
      assert (Hge0 : forall r0, In r0 (requests_of c o2) -> rp_next_rid s <= r0) by (intros r0 Hr0; specialize (Hge r0 Hr0); rewrite K1 in Hge; exact Hge).
      destruct (own_answer c RF R0 (requests_of c o2) s l r (if os_receiver s r then OsSent x else OsDropped) k R E Hge0 (H1 r x eq_refl) Rk) as (_ & _ & X & Eq). eexists. cbn [lrun lact]. rewrite <- Eq, app_nil_r. split; [|exact X].
      cbn. rewrite Rk. reflexivity.
    - destruct (rank r RF) as [k|] eqn:Rk; [|apply Ot; cbn; now rewrite Rk]. cbn [client_events flat_map]. rewrite Rk. cbn [app]. cbn [rp_act] in A. rewrite (proj2 (smem_true r (rp_held s)) (H2 r eq_refl)) in A. injection A as <- <-.
      cbn [requests_of flat_map app] in *. rewrite app_nil_r in *.
      destruct (own_answer c RF R0 (requests_of c o2) s l r OsDropped k R E Hge (H2 r eq_refl) Rk) as (_ & _ & X & _). eexists. cbn [lrun lact]. rewrite app_nil_r. split; [|exact X]. cbn. rewrite Rk. reflexivity. }
  destruct St as (l' & S1 & S2). assert (Cc : client_events a RF (ev :: evs) = client_events a RF [ev] ++ client_events a RF evs) by (unfold client_events; cbn [flat_map]; now rewrite app_nil_r).
  rewrite Cc. assert (La : forall x y m, lrun m (x ++ y) = let (m1, v1) := lrun m x in let (m2, v2) := lrun m1 y in (m2, v1 ++ v2)).
  { clear. induction x as [|e x IH]; intros y m; cbn [app lrun]; [destruct (lrun m y); reflexivity|]. destruct (lact m e) as [m1 v1]. rewrite IH. destruct (lrun m1 x) as [m2 v2]. destruct (lrun m2 y) as [m3 v3]. now rewrite app_assoc. }
  rewrite La, S1. specialize (IH _ _ l' _ _ S2 B E N2 O2 D2 H3 H4). destruct (lrun l' (client_events a RF evs)) as [m2 v2]. cbn [snd] in *. now rewrite IH.
Qed.

Lemma opened_rel c RF pre s0 L0 ev s o : run rp_init pre = (s0, L0) -> act s0 ev = (s, o) -> In (ROpen c a) o -> rel c RF [] s (mkLoc (Some (mkPeer 0 [] [] false true)) [] 0).
Proof using.
  intros Rn A Ho. assert (Rs : run rp_init (pre ++ [ev]) = (s, L0 ++ o)) by (rewrite RepDriverP.run_app, Rn; cbn [rp_run]; rewrite A, app_nil_r; reflexivity).
  destruct (run_inv2 max min auth co D _ _ _ Rs) as (I & Q & Ap & _ & _).
  assert (G : mget a (rp_peers s) = Some (mkPeer c [] [] false true)).
  { assert (Ins : forall u cid b u' o', rp_insert u cid b = (u', o') -> In (ROpen c a) o' -> mget a (rp_peers u') = Some (mkPeer c [] [] false true)).
    { intros u cid b u' o' In1 H. unfold rp_insert in In1. injection In1 as <- <-. destruct H as [H|H]; [injection H as -> ->; cbn; apply mget_set_eq|]. destruct (mget b (rp_peers u)) as [q|]; [|destruct H]. destruct (pr_open q); [destruct H as [H|[]]; discriminate|destruct H]. }
    destruct ev as [b e|k i ok|k res| | |r x|r|]; cbn [rp_act] in A.
    - exfalso. unfold rp_peer in A. destruct (mget b (rp_peers s0)) as [q|]; [|injection A as <- <-; destruct Ho]. destruct (pr_open q); [|injection A as <- <-; destruct Ho].
      destruct (peer_iter min co e (rp_os s0) (rp_next_rid s0) q (rp_tx s0) (rp_failed s0)) as [[[[p' t] f] o1] r] eqn:It. destruct (iter_frame _ _ _ _ _ _ _ _ _ _ _ It) as (_ & _ & F3).
      destruct r as [|m| | |]; [injection A as <- <-; exact (F3 _ Ho)| |injection A as <- <-; exact (F3 _ Ho)| |injection A as <- <-; exact (F3 _ Ho)].
      + unfold rp_on_request in A. cbv zeta in A. destruct (try_decompress D (rr_ctype m) (rr_payload m)); [destruct (_ || _)|]; injection A as <- <-; apply in_app_or in Ho; destruct Ho as [H|[H|[H|[]]]]; try discriminate; exact (F3 _ H).
      + injection A as <- <-. apply in_app_or in Ho. destruct Ho as [H|[H|[]]]; [exact (F3 _ H)|discriminate].
    - unfold rp_auth in A. destruct (nth_error (rp_auths s0) k) as [[cid b]|]; [|injection A as <- <-; destruct Ho]. destruct auth as [au|]; [|injection A as <- <-; destruct Ho].
      destruct (auth_server au ok i) as [[[id| | |] w] rest].
      + destruct (rp_insert _ cid b) as [u o2] eqn:In1 in A. injection A as <- <-. destruct Ho as [H|[H|H]]; [discriminate..|]. exact (Ins _ _ _ _ _ In1 H).
      + injection A as <- <-. destruct Ho as [H|[H|[]]]; discriminate.
      + injection A as <- <-. destruct Ho as [H|[]]; discriminate.
      + injection A as <- <-. destruct Ho.
    - unfold rp_conn in A. destruct (nth_error (rp_conns s0) k) as [cid|]; [|injection A as <- <-; destruct Ho]. destruct res as [[b|]|].
      + destruct auth; [injection A as <- <-; destruct Ho|]. destruct (rp_insert _ cid b) as [u o2] eqn:In1 in A. injection A as <- <-. exact (Ins _ _ _ _ _ In1 Ho).
      + injection A as <- <-. destruct Ho as [H|[]]; discriminate.
      + injection A as <- <-. destruct Ho as [H|[]]; discriminate.
    - exfalso. unfold rp_accept in A. destruct (match max with Some m => m <=? rp_active s0 | None => false end); injection A as <- <-; destruct Ho as [H|[]]; discriminate.
    - exfalso. destruct (rp_chan s0); injection A as <- <-; [destruct Ho|destruct Ho as [H|[]]; discriminate].
    - exfalso. destruct (smem r (rp_held s0)); [destruct (os_receiver s0 r)|]; injection A as <- <-; try (destruct Ho as [H|[]]; discriminate); destruct Ho.
    - exfalso. destruct (smem r (rp_held s0)); injection A as <- <-; try (destruct Ho as [H|[]]; discriminate); destruct Ho.
    - exfalso. injection A as <- <-. destruct Ho as [H|H]; [discriminate|]. apply in_map_iff in H. destruct H as (q & H & _). discriminate. }
  pose proof (open_conn s a _ G eq_refl) as Hin. cbn [pr_cid] in Hin. pose proof (inv1_nodup _ _ I) as Nd. pose proof (inv1_lt _ _ _ I Hin) as Lt.
  assert (Hop : In c (open_cids (rp_peers s))) by exact (open_cid_in a _ _ G eq_refl).
  constructor; cbn [l_peer l_os l_next].
  - rewrite G. split; [reflexivity|]. split; [reflexivity|intros e []].
  - intros r [].
  - reflexivity.
  - intros r [].
  - intros b q Hb Gb. split; [intros Oq Hq; apply Hb; symmetry; exact (open_inj _ _ a b _ q I G Gb eq_refl Oq (eq_sym Hq))|]. intros [r id] He. split; [intros []|]. cbn [fst]. destruct Q as (Q1 & _ & _ & Q4). destruct (Q4 b q r id Gb He) as (m & Hm & _). exact (Q1 _ _ _ _ Hm).
  - unfold connections in Nd. split; [|split; [|exact Lt]]; intros H.
    + apply (NoDup_app_dj _ _ c Nd H). apply in_or_app. now right.
    + apply NoDup_app_r in Nd. exact (NoDup_app_dj _ _ c Nd H Hop).
  - intros r Hr. destruct Ap as (A1 & A2 & _ & A4 & _). apply in_app_or in Hr. destruct Hr as [Hr|Hr]; [exact (A4 _ _ (A1 r Hr))|]. apply in_map_iff in Hr. destruct Hr as (q & <- & Hq). exact (A4 _ _ (A2 q Hq)).
  - apply I.
Qed.

Lemma view_alone c evs L : serves max min auth co D a c evs L -> left_alone D a c L ->
  client_view c (requests_of c L) L = snd (lrun (mkLoc (Some (mkPeer 0 [] [] false true)) [] 0) (client_events a (requests_of c L) evs)).
Proof using.
  intros (pre & s0 & L0 & ev & s & o & s' & R1 & A & Ho & R2 & H1 & H2) (N1 & N2 & N3). symmetry.
  exact (sim_run c (requests_of c L) evs [] s _ s' L (opened_rel c _ pre s0 L0 ev s o R1 A Ho) R2 eq_refl N1 N2 N3 H1 H2).
Qed.
End Rep.

Lemma handed_view c R L : handed_on c L = flat_map (fun x => match x with CvHanded m _ => [m] | _ => [] end) (client_view c R L).
Proof.
  unfold handed_on, client_view. induction L as [|x L IH]; [reflexivity|]. cbn [flat_map]. rewrite flat_map_app, <- IH. f_equal.
  destruct x; cbn; repeat match goal with |- context [rank ?r R] => destruct (rank r R) | |- context [?u =? ?v] => destruct (N.eqb_spec u v) | |- context [eq_dec ?u ?v] => destruct (eq_dec u v) end; try reflexivity; congruence.
Qed.

(*@prop C84 (reply socket), what holds: however many others there are and whatever they do, a client is served as if it were alone.  Take any two
    histories in which a client with the same address is served, in which the same things happen to the client's connection and the
    application gives the same answers to its first, second, ... request, in the same order; the rest - other clients connecting, flooding,
    reading nothing, leaving, the application answering them, and when it takes requests from the socket - may be completely different.
    Then everything observed about the client is the same: its requests as handed to the application, the results of respond(), the frames written to it, its end.
    (Exceptions, each refuted elsewhere: another client with the same address, and a full queue to the application.) *)
Lemma C84_reply_clients_independent_partial_pf :
  forall max min auth co D a c1 c2 evs1 evs2 L1 L2,
  serves max min auth co D a c1 evs1 L1 -> serves max min auth co D a c2 evs2 L2 -> left_alone D a c1 L1 -> left_alone D a c2 L2 ->
  client_events a (requests_of c1 L1) evs1 = client_events a (requests_of c2 L2) evs2 ->
  client_view c1 (requests_of c1 L1) L1 = client_view c2 (requests_of c2 L2) L2 /\ handed_on c1 L1 = handed_on c2 L2.
Proof.
  intros max min auth co D a c1 c2 evs1 evs2 L1 L2 S1 S2 A1 A2 E.
  assert (V : client_view c1 (requests_of c1 L1) L1 = client_view c2 (requests_of c2 L2) L2) by (rewrite (view_alone _ _ _ _ _ _ _ _ _ S1 A1), (view_alone _ _ _ _ _ _ _ _ _ S2 A2), E; reflexivity).
  split; [exact V|]. rewrite (handed_view c1 (requests_of c1 L1)), (handed_view c2 (requests_of c2 L2)), V. reflexivity.
Qed.
(*@example A client alone, and the same client beside another one that has connected and sent requests before and breaks its connection meanwhile: the hypotheses hold, the histories differ, and the answer is the same. *)
Lemma C84_example_reply_pf :
  exists D evs1 evs2 L1 L2,
  serves None 0 None None D 7 0 evs1 L1 /\ serves None 0 None None D 7 1 evs2 L2 /\ left_alone D 7 0 L1 /\ left_alone D 7 1 L2 /\
  client_events 7 (requests_of 0 L1) evs1 = client_events 7 (requests_of 1 L2) evs2 /\
  length evs1 = 5%nat /\ length evs2 = 11%nat /\ requests_of 0 L1 = [0] /\ requests_of 1 L2 = [2] /\ handed_on 0 L1 = [rr_new 3 x00 [x61]] /\ handed_on 1 L2 = [rr_new 3 x00 [x61]].
Proof.
  set (D := {| d_gzip := fun _ => None; d_zstd := fun _ => None; d_snappy := fun _ => None; d_lz4 := fun _ => None |}).
  set (turn := fun n => mkPenv true true true (Some 2) n).
  set (evs1 := [VPeer 7 (rx_penv (NxMsg (rr_new 3 x00 [x41]))); VRecv; VRespond 0 [x61]; VPeer 7 (rx_penv NxPending); VPeer 7 (rx_penv NxPending)]).
  set (evs2 := [VPeer 9 (turn (NxMsg (rr_new 3 x00 [x42]))); VPeer 7 (turn (NxMsg (rr_new 3 x00 [x41]))); VRecv; VRecv; VRecv; VDiscard 0; VPeer 9 (turn NxErr); VRespond 2 [x61]; VPeer 9 (turn NxEof); VPeer 7 (turn NxPending); VPeer 7 (turn NxPending)]).
  assert (Hold : forall s evs, (forall k r, (exists x, nth_error evs k = Some (VRespond r x)) \/ nth_error evs k = Some (VDiscard r) -> In r (rp_held (fst (rp_run None 0 None None D s (firstn k evs))))) ->
    (forall before r x after, evs = before ++ VRespond r x :: after -> In r (rp_held (fst (rp_run None 0 None None D s before)))) /\ (forall before r after, evs = before ++ VDiscard r :: after -> In r (rp_held (fst (rp_run None 0 None None D s before))))).
  { intros s evs H. split; [intros before r x after ->|intros before r after ->]; specialize (H (length before) r); rewrite firstn_app, Nat.sub_diag, firstn_all in H; cbn [firstn] in H; rewrite app_nil_r, nth_error_app2, Nat.sub_diag in H by lia; apply H; [left; exists x|right]; reflexivity. }
  assert (Run1 : exists s1 o s1' L1, rp_act None 0 None None D (fst (rp_run None 0 None None D rp_init [VAccept])) (VConn 0 (Some (Some 7))) = (s1, o) /\ In (ROpen 0 7) o /\ rp_run None 0 None None D s1 evs1 = (s1', L1) /\
    L1 = [RIncoming 0 7 0 (rr_new 3 x00 [x41]); RYield (mkReq 7 0 [x41]); RReceived (mkReq 7 0 [x41]); RResponded 0 [x61] true; RQueued 0 0 (rr_new 3 x00 [x61]); RHanded 0 (rr_new 3 x00 [x61]) true] /\
    (forall k r, (exists x, nth_error evs1 k = Some (VRespond r x)) \/ nth_error evs1 k = Some (VDiscard r) -> In r (rp_held (fst (rp_run None 0 None None D s1 (firstn k evs1)))))).
  { do 4 eexists. split; [vm_compute; reflexivity|]. split; [now left|]. split; [vm_compute; reflexivity|]. split; [vm_compute; reflexivity|].
    intros k r [(x & H)|H]; do 5 (destruct k as [|k]; [cbn in H; try discriminate H; injection H as <-; vm_compute; auto|]); destruct k; discriminate H. }
  assert (Run2 : exists s1 o s1' L1, rp_act None 0 None None D (fst (rp_run None 0 None None D rp_init [VAccept; VConn 0 (Some (Some 9)); VPeer 9 (turn (NxMsg (rr_new 5 x00 [x42]))); VAccept])) (VConn 0 (Some (Some 7))) = (s1, o) /\ In (ROpen 1 7) o /\ rp_run None 0 None None D s1 evs2 = (s1', L1) /\
    (client_events 7 (requests_of 1 L1) evs2 = client_events 7 [0] evs1 /\ requests_of 1 L1 = [2] /\ handed_on 1 L1 = [rr_new 3 x00 [x61]]) /\
    (existsb (fun x => match x with ROpen _ _ | RLost _ | RSocketDropped => true | _ => false end) L1 = false) /\
    (forall k r, (exists x, nth_error evs2 k = Some (VRespond r x)) \/ nth_error evs2 k = Some (VDiscard r) -> In r (rp_held (fst (rp_run None 0 None None D s1 (firstn k evs2)))))).
  { do 4 eexists. split; [vm_compute; reflexivity|]. split; [now left|]. split; [vm_compute; reflexivity|]. split; [vm_compute; repeat split|]. split; [vm_compute; reflexivity|].
    intros k r [(x & H)|H]; do 11 (destruct k as [|k]; [cbn in H; try discriminate H; injection H as <-; vm_compute; auto|]); destruct k; discriminate H. }
  destruct Run1 as (s1 & o1 & t1 & L1 & A1 & O1 & R1 & E1 & H1). destruct Run2 as (s2 & o2 & t2 & L2 & A2 & O2 & R2 & (E2 & Q2 & W2) & X2 & H2).
  exists D, evs1, evs2, L1, L2. destruct (Hold s1 evs1 H1) as (I1 & J1). destruct (Hold s2 evs2 H2) as (I2 & J2).
  split; [eexists [VAccept], _, _, _, s1, o1, t1; split; [apply surjective_pairing|]; split; [exact A1|]; auto|].
  split; [eexists [VAccept; VConn 0 (Some (Some 9)); VPeer 9 (turn (NxMsg (rr_new 5 x00 [x42]))); VAccept], _, _, _, s2, o2, t2; split; [apply surjective_pairing|]; split; [exact A2|]; auto|].
  assert (Al : forall c L, existsb (fun x => match x with ROpen _ _ | RLost _ | RSocketDropped => true | _ => false end) L = false -> left_alone D 7 c L).
  { intros c L Hn. assert (K : forall x, In x L -> match x with ROpen _ _ | RLost _ | RSocketDropped => False | _ => True end).
    { intros x Hx. destruct x; try exact I; (assert (Z : existsb (fun x => match x with ROpen _ _ | RLost _ | RSocketDropped => true | _ => false end) L = true) by (apply existsb_exists; eexists; split; [exact Hx|reflexivity]); congruence). }
    split; [intros c' H; exact (K _ H)|]. split; [intros a' r m _ H; destruct (K _ H)|intros H; exact (K _ H)]. }
  split; [apply Al; rewrite E1; reflexivity|]. split; [apply Al, X2|]. rewrite E2. rewrite E1 in *. split; [reflexivity|]. split; [reflexivity|]. split; [reflexivity|]. split; [reflexivity|]. split; [exact Q2|]. split; [reflexivity|exact W2].
Qed.
