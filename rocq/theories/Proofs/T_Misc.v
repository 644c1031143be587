(** Transports, socket objects, channels and the simulator: C50, C51, C56, C66-C70. *)
From Coq Require Import List NArith.
From Verif Require Import Model.Base Model.Map Model.Transport Model.Sockets Model.Sim Spec.LifeSpec.
Import ListNotations.
Open Scope N_scope.
(*HEADEND*)
From Coq Require Import ZArith ZifyBool ZifyNat ZifyN Lia.
From Verif Require Import Proofs.BaseP Proofs.MapP.

(** ** C50 *)
Lemma loop_all_fail {A T O} (bind : T -> A -> O -> T * bool) : forall l t t' tried,
  bind_loop bind t l = (t', tried) ->
  (exists pre a o post t1, l = pre ++ (a, o) :: post /\ tried = map fst pre ++ [a] /\ bind_loop bind t pre = (t1, map fst pre) /\ bind t1 a o = (t', true)
    /\ forall p b q, pre = p ++ b :: q -> snd (bind (fst (bind_loop bind t p)) (fst b) (snd b)) = false)
  \/ (tried = map fst l /\ forall p b q, l = p ++ b :: q -> snd (bind (fst (bind_loop bind t p)) (fst b) (snd b)) = false).
Proof.
  induction l as [|[a o] l IH]; intros t t' tried H; cbn [bind_loop] in H.
  - injection H as <- <-. right. split; [reflexivity|]. intros [|? ?] b q F; discriminate.
  - destruct (bind t a o) as [t1 ok] eqn:B. destruct ok.
    + injection H as <- <-. left. exists [], a, o, l, t. cbn. repeat split; auto. intros [|? ?] b q F; discriminate.
    + destruct (bind_loop bind t1 l) as [t2 tr] eqn:L. injection H as <- <-.
      destruct (IH _ _ _ L) as [(pre & b & o' & post & t3 & -> & -> & L2 & B2 & F)|(-> & F)].
      * left. exists ((a, o) :: pre), b, o', post, t3. repeat split; auto.
        { cbn [bind_loop]. rewrite B. rewrite L2. reflexivity. }
        intros [|p0 p] c q [= <- E].
        { cbn [fst snd bind_loop]. rewrite B. reflexivity. }
        cbn [bind_loop]. rewrite B. destruct (bind_loop bind t1 p) as [? ?] eqn:Lp. cbn [fst]. specialize (F p c q E). rewrite Lp in F. exact F.
      * right. split; [reflexivity|]. intros [|p0 p] c q [= <- E].
        { cbn [fst snd bind_loop]. rewrite B. reflexivity. }
        cbn [bind_loop]. rewrite B. destruct (bind_loop bind t1 p) as [? ?] eqn:Lp. cbn [fst]. specialize (F p c q E). rewrite Lp in F. exact F.
Qed.

(*@prop C50 (TCP): a socket with a new TCP transport is bound to a list of addresses; [l] lists the addresses with what the operating system does for each (an error, or a listening socket
    that reports the address x).  The addresses are tried in order up to the first one that works; the bind succeeds and local_addr() is what that one reports, or, iff none works, NoValidEndpoints is returned. *)
Lemma C50_tcp_pf :
  forall (A : Type) (l : list (A * option (lsock A))),
  (forall a k, ~ In (a, Some (mkLs k None)) l) ->
  match sv_try_bind tcp_bind tcp_local true (sv_new tcp_new) l with
  | (s, Returns _, tried) => exists pre a k x post, l = pre ++ (a, Some (mkLs k (Some x))) :: post /\ (forall b r, In (b, r) pre -> r = None) /\
                               tried = map fst pre ++ [a] /\ sv_local s = Some x
  | (s, Fails e, tried) => e = NoValidEndpoints /\ (forall b r, In (b, r) l -> r = None) /\ tried = map fst l /\ sv_local s = None
  | (_, Panics, _) => False
  end.
Proof.
  intros A l Hl. unfold sv_try_bind, sv_new. cbn [negb sv_transport]. destruct (bind_loop tcp_bind tcp_new l) as [t' tried] eqn:L.
  assert (NN : forall (q : list (A * option (lsock A))) t, (forall p b q', q = p ++ b :: q' -> snd (tcp_bind (fst (bind_loop tcp_bind t p)) (fst b) (snd b)) = false) -> forall b r, In (b, r) q -> r = None).
  { intros q t F b r I. apply in_split in I as (p & q' & ->). specialize (F p (b, r) q' eq_refl). cbn [fst snd] in F. destruct r; [discriminate|reflexivity]. }
  assert (Same : forall (p : list (A * option (lsock A))) t, (forall b r, In (b, r) p -> r = None) -> fst (bind_loop tcp_bind t p) = t).
  { induction p as [|[b r] p IH]; intros t F; [reflexivity|]. cbn [bind_loop]. rewrite (F b r (or_introl eq_refl)). cbn [tcp_bind].
    specialize (IH t (fun b r I => F b r (or_intror I))). destruct (bind_loop tcp_bind t p). exact IH. }
  destruct (loop_all_fail tcp_bind l _ _ _ L) as [(pre & a & o & post & t1 & -> & -> & L1 & B & F)|(-> & F)].
  - pose proof (NN pre tcp_new F) as Hp. destruct o as [[k [x|]]|].
    + cbn [tcp_bind] in B. injection B as <-. cbn [tcp_local tcp_listener ls_addr]. exists pre, a, k, x, post. repeat split; auto.
    + exfalso. apply (Hl a k). apply in_or_app. right. left. reflexivity.
    + discriminate.
  - pose proof (NN l tcp_new F) as Hp. pose proof (Same l tcp_new Hp) as E. rewrite L in E. cbn [fst] in E. subst t'. cbn. auto.
Qed.

(*@prop C50 (QUIC): the same. *)
Lemma C50_quic_pf :
  forall (A : Type) (l : list (A * option (lsock A))),
  (forall a k, ~ In (a, Some (mkLs k None)) l) ->
  match sv_try_bind quic_bind quic_local true (sv_new quic_new) l with
  | (s, Returns _, tried) => exists pre a k x post, l = pre ++ (a, Some (mkLs k (Some x))) :: post /\ (forall b r, In (b, r) pre -> r = None) /\
                               tried = map fst pre ++ [a] /\ sv_local s = Some x
  | (s, Fails e, tried) => e = NoValidEndpoints /\ (forall b r, In (b, r) l -> r = None) /\ tried = map fst l /\ sv_local s = None
  | (_, Panics, _) => False
  end.
Proof.
  intros A l Hl. unfold sv_try_bind, sv_new. cbn [negb sv_transport]. destruct (bind_loop quic_bind quic_new l) as [t' tried] eqn:L.
  assert (NN : forall (q : list (A * option (lsock A))) t, (forall p b q', q = p ++ b :: q' -> snd (quic_bind (fst (bind_loop quic_bind t p)) (fst b) (snd b)) = false) -> forall b r, In (b, r) q -> r = None).
  { intros q t F b r I. apply in_split in I as (p & q' & ->). specialize (F p (b, r) q' eq_refl). cbn [fst snd] in F. destruct r; [discriminate|reflexivity]. }
  assert (Same : forall (p : list (A * option (lsock A))) t, (forall b r, In (b, r) p -> r = None) -> fst (bind_loop quic_bind t p) = t).
  { induction p as [|[b r] p IH]; intros t F; [reflexivity|]. cbn [bind_loop]. rewrite (F b r (or_introl eq_refl)). cbn [quic_bind].
    specialize (IH t (fun b r I => F b r (or_intror I))). destruct (bind_loop quic_bind t p). exact IH. }
  destruct (loop_all_fail quic_bind l _ _ _ L) as [(pre & a & o & post & t1 & -> & -> & L1 & B & F)|(-> & F)].
  - pose proof (NN pre quic_new F) as Hp. destruct o as [[k [x|]]|].
    + cbn [quic_bind] in B. injection B as <-. cbn [quic_local q_endpoint ls_addr]. exists pre, a, k, x, post. repeat split; auto.
    + exfalso. apply (Hl a k). apply in_or_app. right. left. reflexivity.
    + discriminate.
  - pose proof (NN l quic_new F) as Hp. pose proof (Same l quic_new Hp) as E. rewrite L in E. cbn [fst] in E. subst t'. cbn. auto.
Qed.

Lemma ipc_bind_ok {A} {E : EqDec A} : forall (t t' : ipc A) a e, ipc_bind t a e = (t', true) -> ipc_path t' = Some a /\ ipc_listener t' = ie_create e.
Proof.
  intros t t' a e. unfold ipc_bind. destruct (mget a (ipc_files t)) as [[| |n]|]; cbv zeta; try discriminate.
  - destruct (ie_remove e); [|discriminate]. destruct (ie_create e); [|discriminate]. intros [= <-]. auto.
  - destruct (ie_remove e); [|discriminate]. destruct (ie_create e); [|discriminate]. intros [= <-]. auto.
  - destruct (ie_create e); [|discriminate]. intros [= <-]. auto.
Qed.
Lemma ipc_bind_fail {A} {E : EqDec A} : forall (t t' : ipc A) a e, ipc_bind t a e = (t', false) -> ipc_path t' = ipc_path t /\ ipc_listener t' = ipc_listener t.
Proof.
  intros t t' a e. unfold ipc_bind. destruct (mget a (ipc_files t)) as [[| |n]|]; cbv zeta.
  - destruct (ie_remove e); [|intros [= <-]; auto]. destruct (ie_create e); [discriminate|]. intros [= <-]. auto.
  - intros [= <-]. auto.
  - destruct (ie_remove e); [|intros [= <-]; auto]. destruct (ie_create e); [discriminate|]. intros [= <-]. auto.
  - destruct (ie_create e); [discriminate|]. intros [= <-]. auto.
Qed.
Lemma ipc_bind_frame {A} {E : EqDec A} : forall (t : ipc A) a e b, b <> a -> mget b (ipc_files (fst (ipc_bind t a e))) = mget b (ipc_files t).
Proof.
  intros t a e b N. unfold ipc_bind. destruct (mget a (ipc_files t)) as [[| |n]|]; cbv zeta; try (destruct (ie_remove e)); try (destruct (ie_create e)); cbn [fst ipc_files]; try reflexivity;
    rewrite ?mget_set_ne, ?mget_del_ne by congruence; reflexivity.
Qed.
Lemma ipc_bind_verdict {A} {E : EqDec A} : forall (t : ipc A) a e, snd (ipc_bind t a e) = ipc_bindable (ipc_files t) a e.
Proof.
  intros t a e. unfold ipc_bind, ipc_bindable. destruct (mget a (ipc_files t)) as [[| |n]|]; cbv zeta; destruct (ie_remove e), (ie_create e); reflexivity.
Qed.

(*@prop C50 (IPC): the same, in terms of the files that exist beforehand; local_addr() is the path itself. *)
Lemma C50_ipc_pf :
  forall (A : Type) (E : EqDec A) (fs : list (A * file)) (l : list (A * ipc_env)), NoDup (map fst l) ->
  match sv_try_bind ipc_bind ipc_local true (sv_new (ipc_new fs)) l with
  | (s, Returns _, tried) => exists pre a e post, l = pre ++ (a, e) :: post /\ (forall b r, In (b, r) pre -> ipc_bindable fs b r = false) /\ ipc_bindable fs a e = true /\
                               tried = map fst pre ++ [a] /\ sv_local s = Some a
  | (s, Fails e, tried) => e = NoValidEndpoints /\ (forall b r, In (b, r) l -> ipc_bindable fs b r = false) /\ tried = map fst l /\ sv_local s = None
  | (_, Panics, _) => False
  end.
Proof.
  intros A E fs l ND. unfold sv_try_bind, sv_new. cbn [negb sv_transport]. destruct (bind_loop ipc_bind (ipc_new fs) l) as [t' tried] eqn:L.
  assert (Fr : forall p (t : ipc A) b, ~ In b (map fst p) -> mget b (ipc_files (fst (bind_loop ipc_bind t p))) = mget b (ipc_files t)).
  { induction p as [|[c r] p IH]; intros t b N; [reflexivity|]. cbn [bind_loop]. pose proof (ipc_bind_frame t c r b) as K.
    destruct (ipc_bind t c r) as [t1 ok]. cbn [fst] in K. cbn [map fst] in N. destruct ok; [cbn [fst]; apply K; intros ->; apply N; left; reflexivity|].
    specialize (IH t1 b (fun I => N (or_intror I))). destruct (bind_loop ipc_bind t1 p). cbn [fst] in *. rewrite IH. apply K. intros ->. apply N. left. reflexivity. }
  assert (Bd : forall p (t : ipc A) b r, ~ In b (map fst p) -> snd (ipc_bind (fst (bind_loop ipc_bind t p)) b r) = ipc_bindable (ipc_files t) b r).
  { intros p t b r N. rewrite ipc_bind_verdict. unfold ipc_bindable. rewrite Fr by exact N. reflexivity. }
  assert (Pl : forall p (t : ipc A), (forall q b q', p = q ++ b :: q' -> snd (ipc_bind (fst (bind_loop ipc_bind t q)) (fst b) (snd b)) = false) -> ipc_path (fst (bind_loop ipc_bind t p)) = ipc_path t).
  { induction p as [|[c r] p IH]; intros t F; [reflexivity|]. pose proof (F [] (c, r) p eq_refl) as F0. cbn [bind_loop fst snd] in F0. cbn [bind_loop].
    destruct (ipc_bind t c r) as [t1 ok] eqn:B. cbn [snd] in F0. subst ok. pose proof (ipc_bind_fail _ _ _ _ B) as [P _].
    assert (IH' : ipc_path (fst (bind_loop ipc_bind t1 p)) = ipc_path t1).
    { apply IH. intros q b q' ->. specialize (F ((c, r) :: q) b q' eq_refl). cbn [bind_loop] in F. rewrite B in F. destruct (bind_loop ipc_bind t1 q). exact F. }
    destruct (bind_loop ipc_bind t1 p). cbn [fst] in *. congruence. }
  assert (NN : forall q q0, NoDup (map fst q) -> q = q0 -> (forall p b q', q = p ++ b :: q' -> snd (ipc_bind (fst (bind_loop ipc_bind (ipc_new fs) p)) (fst b) (snd b)) = false) -> forall b r, In (b, r) q -> ipc_bindable fs b r = false).
  { intros q _ Nq _ F b r I. apply in_split in I as (p & q' & ->). specialize (F p (b, r) q' eq_refl). cbn [fst snd] in F.
    rewrite Bd in F; [exact F|]. rewrite map_app in Nq. cbn [map fst] in Nq. apply NoDup_remove_2 in Nq. intros I. apply Nq. apply in_or_app. left. exact I. }
  destruct (loop_all_fail ipc_bind l _ _ _ L) as [(pre & a & o & post & t1 & -> & -> & L1 & B & F)|(-> & F)].
  - assert (Np : NoDup (map fst pre) /\ ~ In a (map fst pre)).
    { rewrite map_app in ND. cbn [map fst] in ND. split; [|apply NoDup_remove_2 in ND; intros I; apply ND; apply in_or_app; left; exact I].
      clear - ND. induction (map fst pre); [constructor|]. inversion ND; subst. constructor; [|auto]. intros I. apply H1. apply in_or_app. left. exact I. }
    pose proof (ipc_bind_ok _ _ _ _ B) as [P _]. unfold ipc_local. rewrite P. exists pre, a, o, post. split; [reflexivity|]. split; [apply (NN pre pre); tauto|]. split; [|split; [reflexivity|reflexivity]].
    specialize (Bd pre (ipc_new fs) a o (proj2 Np)). rewrite L1 in Bd. cbn [fst] in Bd. rewrite B in Bd. symmetry. exact Bd.
  - pose proof (Pl l (ipc_new fs) F) as P. rewrite L in P. cbn [fst] in P. unfold ipc_local. rewrite P. cbn [ipc_path ipc_new]. repeat split; auto. apply (NN l l); auto.
Qed.

(*@prop C50 (a transport that the program has already bound itself): if no address of the list works, the bind succeeds all the same and keeps the transport's old address. *)
Lemma C50_transport_already_bound_pf :
  forall (A : Type) (k : N) (x : A) (l : list A),
  sv_try_bind tcp_bind tcp_local true (sv_new (mkTcp (Some (mkLs k (Some x))))) (map (fun a => (a, None)) l) = (mkSrv None true (Some x), Returns tt, l).
Proof.
  intros A k x l. unfold sv_try_bind, sv_new. cbn [negb sv_transport].
  assert (K : bind_loop tcp_bind (mkTcp (Some (mkLs k (Some x)))) (map (fun a => (a, None)) l) = (mkTcp (Some (mkLs k (Some x))), l)).
  { induction l as [|a l IH]; [reflexivity|]. cbn [map bind_loop tcp_bind]. rewrite IH. reflexivity. }
  rewrite K. reflexivity.
Qed.

(*@example *)
Lemma C50_example_pf :
  sv_try_bind tcp_bind tcp_local true (sv_new tcp_new) [(10, None); (0, Some (mkLs 7 (Some 40001))); (30, Some (mkLs 8 (Some 30)))] = (mkSrv None true (Some 40001), Returns tt, [10; 0])
  /\ sv_try_bind tcp_bind tcp_local true (sv_new tcp_new) [(10, None); (20, None)] = (mkSrv None false None, Fails NoValidEndpoints, [10; 20])
  /\ snd (fst (sv_try_bind ipc_bind ipc_local true (sv_new (ipc_new [(1, FDir); (2, FRegular)])) [(1, mkIe true (Some 5)); (2, mkIe true (Some 5))])) = Returns tt.
Proof. repeat split; reflexivity. Qed.

(** ** C51 *)
(*@prop C51 is false: a connection whose accept future is not ready when it is first polled is dropped: the caller of accept() never gets it, whatever happens before and after, and its task sleeps
    without anybody to wake it up. *)
Lemma C51_pending_handshake_is_lost_refuted_pf :
  forall w c before after, (0 < w)%nat ->
  accept_loop (before ++ Some (mkFut w (InConn c)) :: after) = accept_loop before ++ accept_loop after
  /\ acceptor_poll (Some (mkFut w (InConn c))) = ASleep WakeByNobody.
Proof.
  intros w c before after W. assert (K : acceptor_poll (Some (mkFut w (InConn c))) = ASleep WakeByNobody).
  { unfold acceptor_poll. cbn [f_wait]. destruct (Nat.eqb_spec w 0); [lia|reflexivity]. }
  split; [|exact K]. induction before as [|r b IH]; cbn [app].
  - cbn [accept_loop]. rewrite K. reflexivity.
  - cbn [accept_loop]. destruct (acceptor_poll r); cbn [app]; rewrite IH; reflexivity.
Qed.

(*@prop C51 is false for QUIC: there is a run of a bound QUIC transport with one inbound connection whose handshake completes on its second poll in which accept() never returns. *)
Lemma C51_quic_refuted_pf :
  exists (t : quic N) polls, q_endpoint t = Some (mkLs 1 (Some 5000)) /\ polls = [QConnecting 1 (InConn 77); QPending; QPending] /\
  accept_loop (map (fun p => snd (quic_poll_accept t (fun _ => p))) polls) = [].
Proof. exists (mkQ (Some (mkLs 1 (Some 5000))) None), [QConnecting 1 (InConn 77); QPending; QPending]. repeat split; reflexivity. Qed.

(*@prop C51 (TCP): accept() returns exactly the connections of the listening socket, in order; a sleeping caller is woken by the listening socket. *)
Lemma C51_tcp_partial_pf :
  forall (A : Type) (l : lsock A) (polls : list lpoll),
  accept_loop (map (fun p => tcp_poll_accept (mkTcp (Some l)) (fun _ => p)) polls)
    = flat_map (fun p => match p with LPending => [] | LConn c true => [InConn c] | LConn _ false => [InErr] | LErr => [InErr] end) polls
  /\ forall p, acceptor_poll (tcp_poll_accept (mkTcp (Some l)) (fun _ => p)) <> ASleep WakeByNobody.
Proof.
  intros A l polls. split.
  - induction polls as [|[|c []|] p IH]; cbn; f_equal; auto.
  - intros [|c []|]; cbn; discriminate.
Qed.

(*@prop C51 (IPC): the same. *)
Lemma C51_ipc_partial_pf :
  forall (A : Type) (fs : list (A * file)) (k : N) (path : A) (polls : list lpoll),
  accept_loop (map (fun p => ipc_poll_accept (mkIpc fs (Some k) (Some path)) (fun _ => p)) polls)
    = flat_map (fun p => match p with LPending => [] | LConn c _ => [InConn c] | LErr => [InErr] end) polls
  /\ forall p, acceptor_poll (ipc_poll_accept (mkIpc fs (Some k) (Some path)) (fun _ => p)) <> ASleep WakeByNobody.
Proof.
  intros A fs k path polls. split.
  - induction polls as [|[|c b|] p IH]; cbn; f_equal; auto.
  - intros [|c b|]; cbn; discriminate.
Qed.

(*@example *)
Lemma C51_example_pf :
  accept_loop (map (fun p => tcp_poll_accept (mkTcp (Some (mkLs 1 (Some 5000)))) (fun _ => p)) [LPending; LConn 3 true; LConn 4 true; LErr; LConn 5 true]) = [InConn 3; InConn 4; InErr; InConn 5].
Proof. reflexivity. Qed.

(** ** C68 *)
(*@prop C68 (TCP, IPC): after a successful bind, what accept() looks at is the listening socket of that bind, and local_addr() is its address; an unsuccessful bind changes neither. *)
Lemma C68_tcp_ipc_partial_pf :
  (forall (A : Type) (t : tcp A) a l, tcp_bind t a (Some l) = (mkTcp (Some l), true) /\ tcp_local (mkTcp (Some l)) = ls_addr l /\
     (forall poll, tcp_poll_accept (mkTcp (Some l)) poll = tcp_poll_accept (mkTcp (Some l)) (fun _ => poll l)) /\ tcp_bind t a None = (t, false))
  /\ (forall (A : Type) (E : EqDec A) (t t' : ipc A) a e, ipc_bind t a e = (t', true) ->
       exists k, ie_create e = Some k /\ ipc_local t' = Some a /\ ipc_reaches (ipc_files t') a = Some k /\ forall poll, ipc_poll_accept t' poll = ipc_poll_accept t' (fun _ => poll k))
  /\ (forall (A : Type) (E : EqDec A) (t t' : ipc A) a e, ipc_bind t a e = (t', false) -> ipc_local t' = ipc_local t /\ forall poll, ipc_poll_accept t' poll = ipc_poll_accept t poll).
Proof.
  split; [|split].
  - intros. repeat split; reflexivity.
  - intros A E t t' a e H. pose proof (ipc_bind_ok _ _ _ _ H) as [P L]. pose proof (ipc_bind_verdict t a e) as V. rewrite H in V. cbn [snd] in V. unfold ipc_bindable in V.
    destruct (ie_create e) as [k|] eqn:C; [|rewrite andb_false_r in V; discriminate]. exists k. split; [reflexivity|]. split; [exact P|]. split.
    + unfold ipc_bind in H. rewrite C in H. cbv zeta in H. unfold ipc_reaches.
      assert (X : exists fs, t' = mkIpc (mset a (FSock k) fs) (Some k) (Some a)).
      { destruct (mget a (ipc_files t)) as [[| |n]|]; try discriminate; try (destruct (ie_remove e); [|discriminate]); injection H as <-; eexists; reflexivity. }
      destruct X as [fs ->]. cbn [ipc_files]. rewrite mget_set_eq. reflexivity.
    + intros poll. unfold ipc_poll_accept. rewrite L. reflexivity.
  - intros A E t t' a e H. pose proof (ipc_bind_fail _ _ _ _ H) as [P L]. split; [exact P|]. intros poll. unfold ipc_poll_accept. rewrite L. reflexivity.
Qed.

(*@prop C68 is false for QUIC: after bind, accept, bind the transport reports the second address but accept() only ever looks at the connections made to the first one. *)
Lemma C68_quic_rebind_refuted_pf :
  forall (A : Type) (a1 a2 : A) (k1 k2 : N) (x1 x2 : option A) p0,
  let t1 := fst (quic_bind quic_new a1 (Some (mkLs k1 x1))) in
  let t2 := fst (quic_poll_accept t1 p0) in
  let t3 := fst (quic_bind t2 a2 (Some (mkLs k2 x2))) in
  quic_local t3 = x2 /\ forall poll, quic_poll_accept t3 poll = quic_poll_accept t3 (fun _ => poll (mkLs k1 x1)).
Proof. intros. split; reflexivity. Qed.

(*@prop C68 (QUIC): as long as no connection was accepted before, accept() looks at the endpoint of the last bind. *)
Lemma C68_quic_partial_pf :
  forall (A : Type) (t : quic A) a l poll, q_incoming t = None ->
  quic_bind t a (Some l) = (mkQ (Some l) None, true) /\ quic_local (mkQ (Some l) None) = ls_addr l /\
  quic_poll_accept (mkQ (Some l) None) poll = (mkQ (Some l) (Some l), snd (quic_poll_accept (mkQ (Some l) None) (fun _ => poll l))).
Proof. intros A t a l poll H. unfold quic_bind. rewrite H. repeat split; reflexivity. Qed.
(*@prop C68, QUIC (what holds): outbound connections never replace the endpoint the transport is bound to (they share it), and leave accepting as it
    was; without a bound endpoint the first one creates an endpoint, which all later ones and accept use. *)
Lemma C68_quic_connect_partial_pf :
  forall (A : Type) (t : quic A) (rs : list (option (lsock A))),
  let ts := fold_left (fun t r => fst (quic_connect t r)) rs t in
  q_incoming ts = q_incoming t
  /\ (forall l r, q_endpoint t = Some l -> q_endpoint ts = Some l /\ snd (quic_connect ts r) = Some l)
  /\ (q_endpoint t = None -> (forall r, In r rs -> r = None) -> q_endpoint ts = None)
  /\ (forall l rs1 rs2 r, q_endpoint t = None -> rs = rs1 ++ Some l :: rs2 -> (forall r, In r rs1 -> r = None) ->
      q_endpoint ts = Some l /\ quic_local ts = ls_addr l /\ snd (quic_connect ts r) = Some l).
Proof.
  intros A t rs ts.
  assert (Inc : forall rs (t : quic A), q_incoming (fold_left (fun t r => fst (quic_connect t r)) rs t) = q_incoming t).
  { clear. induction rs as [|r rs IH]; intros t; cbn [fold_left]; [reflexivity|]. rewrite IH. unfold quic_connect. destruct (q_endpoint t), r; reflexivity. }
  assert (Keep : forall rs (t : quic A) l, q_endpoint t = Some l -> q_endpoint (fold_left (fun t r => fst (quic_connect t r)) rs t) = Some l).
  { clear. induction rs as [|r rs IH]; intros t l H; cbn [fold_left]; [exact H|]. apply IH. unfold quic_connect. rewrite H. exact H. }
  assert (None_ : forall rs (t : quic A), q_endpoint t = None -> (forall r, In r rs -> r = None) -> q_endpoint (fold_left (fun t r => fst (quic_connect t r)) rs t) = None).
  { clear. induction rs as [|r rs IH]; intros t H K; cbn [fold_left]; [exact H|]. apply IH; [|intros r' I; apply K; right; exact I]. rewrite (K r (or_introl eq_refl)). unfold quic_connect. rewrite H. exact H. }
  assert (Use : forall (t : quic A) l r, q_endpoint t = Some l -> snd (quic_connect t r) = Some l) by (intros t0 l r H; unfold quic_connect; rewrite H; reflexivity).
  split; [apply Inc|]. split; [intros l r H; split; [apply Keep, H|apply Use, Keep, H]|]. split; [apply None_|].
  intros l rs1 rs2 r H -> K. assert (Q : q_endpoint ts = Some l).
  { unfold ts. rewrite fold_left_app. cbn [fold_left]. apply Keep. pose proof (None_ rs1 t H K) as X. unfold quic_connect at 1. rewrite X. reflexivity. }
  split; [exact Q|]. split; [unfold quic_local; rewrite Q; reflexivity|apply Use, Q].
Qed.


(** ** C69 *)
(*@prop C69 is false: binding an IPC socket to the path of another, live socket succeeds and takes its clients away, although the first one still reports the path as its own; and binding to the path of an
    ordinary file deletes it. *)
Lemma C69_path_taken_over_refuted_pf :
  forall (A : Type) (E : EqDec A) (p : A) fs k1 k2, mget p fs = None ->
  let t1 := fst (ipc_bind (ipc_new fs) p (mkIe true (Some k1))) in
  ipc_local t1 = Some p /\ ipc_reaches (ipc_files t1) p = Some k1 /\
  let (t2, ok) := ipc_bind (ipc_new (ipc_files t1)) p (mkIe true (Some k2)) in
  ok = true /\ ipc_reaches (ipc_files t2) p = Some k2.
Proof.
  intros A E p fs k1 k2 H t1. assert (K : t1 = mkIpc (mset p (FSock k1) fs) (Some k1) (Some p)) by (unfold t1, ipc_bind; cbn [ipc_files ipc_new]; rewrite H; reflexivity).
  rewrite K. clear K t1. cbn [ipc_local ipc_path ipc_files]. split; [reflexivity|]. split; [unfold ipc_reaches; rewrite mget_set_eq; reflexivity|].
  unfold ipc_bind. cbn [ipc_files ipc_new]. rewrite mget_set_eq. cbn [ie_remove ie_create]. split; [reflexivity|]. unfold ipc_reaches. cbn [ipc_files]. rewrite mget_set_eq. reflexivity.
Qed.
(*@prop C69 is false (ordinary files): see above. *)
Lemma C69_file_deleted_refuted_pf :
  exists (fs : list (N * file)), mget 1 fs = Some FRegular /\ mget 1 (ipc_files (fst (ipc_bind (ipc_new fs) 1 (mkIe true None)))) = None.
Proof. exists [(1, FRegular)]. split; reflexivity. Qed.
(*@prop C69 (what holds): a bind never touches anything at another path, and never removes a directory. *)
Lemma C69_other_paths_untouched_partial_pf :
  forall (A : Type) (E : EqDec A) (t : ipc A) a e,
  (forall b, b <> a -> mget b (ipc_files (fst (ipc_bind t a e))) = mget b (ipc_files t))
  /\ (mget a (ipc_files t) = Some FDir -> ipc_bind t a e = (t, false)).
Proof.
  intros A E t a e. split; [intros b N; apply ipc_bind_frame; exact N|]. intros H. unfold ipc_bind. rewrite H. reflexivity.
Qed.

(** ** C66 *)
(*@prop C66 is false: after a bind that failed because no address worked, the next bind panics, whatever addresses it is given; and a reply socket that is not bound panics when it is polled. *)
Lemma C66_rebind_panics_refuted_pf :
  forall (A : Type) (l : list A) l2,
  snd (sv_run tcp_bind tcp_local true true (sv_new tcp_new) [SBind (Some (map (fun a => (a, None)) l)); SBind (Some l2); SUse]) = [Fails NoValidEndpoints; Panics; Panics].
Proof.
  intros A l l2. assert (K : bind_loop tcp_bind tcp_new (map (fun a : A => (a, None)) l) = (tcp_new, l)).
  { induction l as [|a l IH]; [reflexivity|]. cbn [map bind_loop tcp_bind]. rewrite IH. reflexivity. }
  cbn [sv_run sv_op sv_bind]. unfold sv_try_bind at 1. cbn [negb sv_transport sv_new]. rewrite K. cbn. reflexivity.
Qed.

(*@prop C66 (what holds, reply and publisher sockets): in every history the result of a call is determined as follows.  A bind whose name lookup fails returns that error and may be repeated; a bind after
    one whose lookup succeeded panics.  Once bound, using the socket always works; before, the publisher returns SocketClosed and the reply socket panics. *)
Lemma C66_server_law_partial_pf :
  forall (A T O : Type) (bind : T -> A -> O -> T * bool) (local : T -> option A) is_rep t ops s rs,
  sv_run bind local true is_rep (sv_new t) ops = (s, rs) ->
  let taken := exists l, In (SBind (Some l)) ops in
  let bound := exists pre l post, ops = pre ++ SBind (Some l) :: post /\ nth_error rs (length pre) = Some (Returns tt) in
  snd (sv_op bind local true is_rep s (SBind None)) = Fails LookupFailed
  /\ (taken -> forall l, snd (sv_op bind local true is_rep s (SBind (Some l))) = Panics)
  /\ (~ taken -> forall l, snd (sv_op bind local true is_rep s (SBind (Some l))) <> Panics)
  /\ (bound -> snd (sv_op bind local true is_rep s SUse) = Returns tt)
  /\ (~ bound -> snd (sv_op bind local true is_rep s SUse) = if is_rep then Panics else Fails SocketClosed).
Proof.
  intros A T O bind local is_rep t ops s rs R taken bound.
  assert (Inv : (sv_transport s = None <-> taken) /\ (sv_driver s = true <-> bound) /\ length rs = length ops).
  { subst taken bound.
    assert (G : forall ops s0 s rs, sv_run bind local true is_rep s0 ops = (s, rs) ->
      (sv_transport s = None <-> sv_transport s0 = None \/ exists l, In (SBind (Some l)) ops) /\
      (sv_driver s = true <-> sv_driver s0 = true \/ exists pre l post, ops = pre ++ SBind (Some l) :: post /\ nth_error rs (length pre) = Some (Returns tt)) /\ length rs = length ops).
    { clear. induction ops as [|o ops IH]; intros s0 s rs R; cbn [sv_run] in R.
      - injection R as <- <-. split; [|split]; [split; [auto|intros [H|(l & [])]; exact H] |split; [auto|intros [H|(pre & l & post & E & _)]; [exact H|destruct pre; discriminate]]|reflexivity].
      - destruct (sv_op bind local true is_rep s0 o) as [s1 r] eqn:O1. destruct (sv_run bind local true is_rep s1 ops) as [s2 rs2] eqn:R2. injection R as <- <-.
        destruct (IH _ _ _ R2) as (T2 & D2 & L2). cbn [length].
        assert (Step : (sv_transport s1 = None <-> sv_transport s0 = None \/ exists l, o = SBind (Some l)) /\ (sv_driver s1 = true <-> sv_driver s0 = true \/ (exists l, o = SBind (Some l)) /\ r = Returns tt)).
        { destruct o as [[l|]|]; cbn [sv_op sv_bind fst] in O1.
          - unfold sv_try_bind in O1. cbn [negb] in O1. destruct (sv_transport s0) as [t|] eqn:T0.
            + destruct (bind_loop bind t l) as [t' tr]. destruct (local t'); injection O1 as <- <-; cbn [sv_transport sv_driver].
              * split; [split; [intros _; right; eexists; reflexivity|auto]|]. split; [intros _; right; split; [eexists; reflexivity|reflexivity]|auto].
              * split; [split; [intros _; right; eexists; reflexivity|auto]|]. split; [auto|]. intros [H|[_ H]]; [exact H|discriminate].
            + injection O1 as <- <-. split; [rewrite T0; split; auto|]. split; [auto|]. intros [H|[_ H]]; [exact H|discriminate].
          - injection O1 as <- <-. split; (split; [auto|]); [intros [H|(l & H)]; [exact H|discriminate]|intros [H|[(l & H) _]]; [exact H|discriminate]].
          - injection O1 as <- <-. split; (split; [auto|]); [intros [H|(l & H)]; [exact H|discriminate]|intros [H|[(l & H) _]]; [exact H|discriminate]]. }
        destruct Step as [St Sd]. split; [|split].
        + rewrite T2, St. split.
          * intros [[H|(l & ->)]|(l & H)]; [auto|right; exists l; left; reflexivity|right; exists l; right; exact H].
          * intros [H|(l & [->|H])]; [auto|left; right; exists l; reflexivity|right; exists l; exact H].
        + rewrite D2, Sd. split.
          * intros [[H|[(l & ->) ->]]|(pre & l & post & -> & E)]; [auto|right; exists [], l, ops; split; reflexivity|right; exists (o :: pre), l, post; split; [reflexivity|exact E]].
          * intros [H|(pre & l & post & E & F)]; [auto|]. destruct pre as [|o' pre]; injection E as -> ->.
            { left. right. cbn in F. injection F as ->. split; [eexists; reflexivity|reflexivity]. }
            { right. exists pre, l, post. split; [reflexivity|exact F]. }
        + f_equal. exact L2. }
    destruct (G _ _ _ _ R) as (T1 & D1 & L1). cbn [sv_new sv_transport sv_driver] in T1, D1. split; [|split; [|exact L1]].
    - rewrite T1. split; [intros [H|H]; [discriminate|exact H]|auto].
    - rewrite D1. split; [intros [H|H]; [discriminate|exact H]|auto]. }
  destruct Inv as (It & Id & _). split; [reflexivity|]. split; [|split; [|split]].
  - intros Ht l. apply It in Ht. cbn [sv_op sv_bind]. unfold sv_try_bind. cbn [negb]. rewrite Ht. reflexivity.
  - intros Ht l. cbn [sv_op sv_bind]. unfold sv_try_bind. cbn [negb]. destruct (sv_transport s) eqn:E; [|exfalso; apply Ht; apply It; reflexivity].
    destruct (bind_loop bind t0 l) as [t' tr]. destruct (local t'); discriminate.
  - intros H. apply Id in H. cbn [sv_op snd]. unfold rep_poll, pub_publish. rewrite H. destruct is_rep; reflexivity.
  - intros H. assert (F : sv_driver s = false) by (destruct (sv_driver s); [exfalso; apply H; apply Id; reflexivity|reflexivity]).
    cbn [sv_op snd]. unfold rep_poll, pub_publish. rewrite F. destruct is_rep; reflexivity.
Qed.

(*@prop C66 is false (request socket): a second connect panics. *)
Lemma C66_reconnect_panics_refuted_pf :
  snd (cl_run 5000000000 None cl_new [KRequest; KConnect (Some 1); KRequest; KConnect (Some 1); KRequest]) = [Fails SocketClosed; Returns tt; Returns tt; Panics; Returns tt].
Proof. reflexivity. Qed.

(*@prop C66 (what holds, request socket with usable options): a connect whose lookup fails or finds nothing returns an error and may be repeated; the first other connect succeeds, later ones panic; request
    returns SocketClosed before the connect, and is handed to the driver afterwards. *)
Lemma C66_client_law_partial_pf :
  forall timeout flush ops s rs, 10 <= timeout -> flush <> Some 0 ->
  cl_run timeout flush cl_new ops = (s, rs) ->
  let connected := exists n, In (KConnect (Some n)) ops /\ n <> 0 in
  snd (cl_op timeout flush s (KConnect None)) = Fails LookupFailed
  /\ snd (cl_op timeout flush s (KConnect (Some 0))) = Fails NoValidEndpoints
  /\ (connected -> (forall n, n <> 0 -> snd (cl_op timeout flush s (KConnect (Some n))) = Panics) /\ snd (cl_op timeout flush s KRequest) = Returns tt)
  /\ (~ connected -> (forall n, n <> 0 -> snd (cl_op timeout flush s (KConnect (Some n))) = Returns tt) /\ snd (cl_op timeout flush s KRequest) = Fails SocketClosed).
Proof.
  intros timeout flush ops s rs Ht Hf R connected.
  assert (Ok : interval_ok (timeout / 10) && (match flush with None => true | Some p => interval_ok p end) = true).
  { apply andb_true_iff. split; [unfold interval_ok; apply N.ltb_lt; apply N.div_str_pos; lia|]. destruct flush as [p|]; [|reflexivity]. unfold interval_ok. apply N.ltb_lt. assert (p <> 0) by congruence. lia. }
  assert (Inv : forall ops s0 s rs, (s0 = mkCl true false \/ s0 = mkCl false true) -> cl_run timeout flush s0 ops = (s, rs) ->
    (s = mkCl false true /\ (s0 = mkCl false true \/ exists n, In (KConnect (Some n)) ops /\ n <> 0)) \/ (s = mkCl true false /\ s0 = mkCl true false /\ forall n, In (KConnect (Some n)) ops -> n = 0)).
  { clear R connected ops s rs. induction ops as [|o ops IH]; intros s0 s rs H0 R; cbn [cl_run] in R.
    - injection R as <- <-. destruct H0 as [-> | ->]; [right|left]; repeat split; auto. intros n [].
    - destruct (cl_op timeout flush s0 o) as [s1 r] eqn:O1. destruct (cl_run timeout flush s1 ops) as [s2 rs2] eqn:R2. injection R as <- <-.
      assert (St : (s1 = mkCl false true /\ (s0 = mkCl false true \/ exists n, o = KConnect (Some n) /\ n <> 0)) \/ (s1 = mkCl true false /\ s0 = mkCl true false /\ forall n, o = KConnect (Some n) -> n = 0)).
      { destruct o as [[[|p]|]|]; cbn [cl_op req_connect] in O1.
        - injection O1 as <- <-. destruct H0 as [-> | ->]; [right|left]; repeat split; auto. intros n [= <-]. reflexivity.
        - unfold req_try_connect in O1. rewrite Ok in O1. destruct H0 as [-> | ->]; cbn [cl_transport] in O1; injection O1 as <- <-; left; split; auto. right. exists (N.pos p). split; [reflexivity|discriminate].
        - injection O1 as <- <-. destruct H0 as [-> | ->]; [right|left]; repeat split; auto. discriminate.
        - injection O1 as <- <-. destruct H0 as [-> | ->]; [right|left]; repeat split; auto. discriminate. }
      destruct St as [[-> C]|(-> & -> & C)].
      + destruct (IH _ _ _ (or_intror eq_refl) R2) as [[-> _]|(_ & F & _)]; [|discriminate]. left. split; [reflexivity|]. destruct C as [C|(n & -> & Hn)]; [left; exact C|right; exists n; split; [left; reflexivity|exact Hn]].
      + destruct (IH _ _ _ (or_introl eq_refl) R2) as [[-> [F|(n & I & Hn)]]|(-> & _ & F)]; [discriminate|left; split; [reflexivity|right; exists n; split; [right; exact I|exact Hn]]|].
        right. repeat split; auto. intros n [->|I]; [apply C; reflexivity|apply F; exact I]. }
  destruct (Inv _ _ _ _ (or_introl eq_refl) R) as [[-> [F|C]]|(-> & _ & C)].
  - discriminate.
  - split; [reflexivity|]. split; [reflexivity|]. split; [|intros H; exfalso; apply H; exact C]. intros _. split; [intros [|p] Hn; [congruence|reflexivity]|reflexivity].
  - split; [reflexivity|]. split; [reflexivity|]. split; [intros (n & I & Hn); exfalso; apply Hn; apply C; exact I|]. intros _. split; [|reflexivity].
    intros [|p] Hn; [congruence|]. cbn [cl_op req_connect]. unfold req_try_connect. rewrite Ok. reflexivity.
Qed.

(** ** C67 *)
(*@prop C66, request socket with options tokio rejects (C67): the first connect panics and takes the transport with it: every later connect panics
    too, whatever happened before, and requests fail. *)
Lemma C66_client_bad_options_partial_pf :
  forall timeout flush ops s rs, timeout < 10 \/ flush = Some 0 ->
  cl_run timeout flush cl_new ops = (s, rs) ->
  (forall n, n <> 0 -> snd (cl_op timeout flush s (KConnect (Some n))) = Panics) /\ snd (cl_op timeout flush s KRequest) = Fails SocketClosed /\
  (forall t2 f2 n m, n <> 0 -> In (KConnect (Some n)) ops -> m <> 0 -> snd (cl_op t2 f2 s (KConnect (Some m))) = Panics).
Proof.
  intros timeout flush ops s rs B R.
  assert (Bad : interval_ok (timeout / 10) && (match flush with None => true | Some p => interval_ok p end) = false).
  { apply andb_false_iff. destruct B as [B | ->]; [left|right; reflexivity]. unfold interval_ok. rewrite N.div_small by lia. reflexivity. }
  assert (Inv : forall ops s0 s rs, cl_driver s0 = false -> cl_run timeout flush s0 ops = (s, rs) ->
    cl_driver s = false /\ (cl_transport s0 = false -> cl_transport s = false) /\ (forall n, n <> 0 -> In (KConnect (Some n)) ops -> cl_transport s = false)).
  { clear R ops s rs. induction ops as [|o ops IH]; intros s0 s rs H0 R; cbn [cl_run] in R.
    - injection R as <- <-. repeat split; auto. intros n _ [].
    - destruct (cl_op timeout flush s0 o) as [s1 r] eqn:O1. destruct (cl_run timeout flush s1 ops) as [s2 rs2] eqn:R2. injection R as <- <-.
      assert (St : cl_driver s1 = false /\ (cl_transport s0 = false -> cl_transport s1 = false) /\ (forall n, n <> 0 -> o = KConnect (Some n) -> cl_transport s1 = false)).
      { destruct o as [[[|p]|]|]; cbn [cl_op req_connect] in O1.
        1, 3, 4: (injection O1 as <- <-; repeat split; auto; intros n Hn [= E]; congruence).
        unfold req_try_connect in O1. rewrite Bad in O1. destruct (cl_transport s0) eqn:T; injection O1 as <- <-; repeat split; auto. }
      destruct St as (D1 & T1 & C1). destruct (IH _ _ _ D1 R2) as (D2 & T2 & C2). split; [exact D2|]. split; [auto|].
      intros n Hn [->|I]; [apply T2, (C1 n Hn); reflexivity|exact (C2 n Hn I)]. }
  destruct (Inv ops cl_new s rs eq_refl R) as (D & _ & C). split; [|split].
  - intros n Hn. destruct n as [|p]; [congruence|]. cbn [cl_op req_connect]. unfold req_try_connect. rewrite Bad. destruct (cl_transport s); reflexivity.
  - cbn [cl_op]. unfold req_request. rewrite D. reflexivity.
  - intros t2 f2 n m Hn I Hm. destruct m as [|p]; [congruence|]. cbn [cl_op req_connect]. unfold req_try_connect. rewrite (C n Hn I). reflexivity.
Qed.

(*@prop C67 is false: there are option values that make the socket panic: a request timeout below 10 ns, a flush interval of 0, a publisher session buffer of 0, a subscriber ingress buffer of 0. *)
Lemma C67_panicking_options_refuted_pf :
  (forall timeout flush, timeout < 10 -> snd (req_try_connect timeout flush cl_new) = Panics)
  /\ (forall timeout, snd (req_try_connect timeout (Some 0) cl_new) = Panics)
  /\ (forall (A T O : Type) (bind : T -> A -> O -> T * bool) local t l, snd (fst (sv_try_bind bind local (broadcast_capacity_ok 0) (sv_new t) l)) = Panics)
  /\ pub_session_ok (Some 0) = false
  /\ sub_new_ok 0 = Panics.
Proof.
  split; [|split; [|split; [|split]]]; try reflexivity.
  - intros timeout flush H. unfold req_try_connect, interval_ok. cbn [cl_transport cl_new]. rewrite N.div_small by exact H. reflexivity.
  - intros timeout. unfold req_try_connect. cbn [cl_transport cl_new]. rewrite andb_false_r. reflexivity.
Qed.
(*@prop C67 (what holds): all other values are fine (buffers up to 2^61 - 1 and 2^63 - 1 messages). *)
Lemma C67_other_options_work_partial_pf :
  (forall timeout flush, 10 <= timeout -> flush <> Some 0 -> req_try_connect timeout flush cl_new = (mkCl false true, Returns tt))
  /\ (forall n, 0 < n < 2 ^ 63 -> broadcast_capacity_ok n = true)
  /\ (forall (A T O : Type) (bind : T -> A -> O -> T * bool) local t l, snd (fst (sv_try_bind bind local true (sv_new t) l)) <> Panics)
  /\ (forall p, p <> Some 0 -> pub_session_ok p = true)
  /\ (forall n, 0 < n < 2 ^ 61 -> sub_new_ok n = Returns tt).
Proof.
  split; [|split; [|split; [|split]]].
  - intros timeout flush Ht Hf. unfold req_try_connect. cbn [cl_transport cl_new].
    assert (Ok : interval_ok (timeout / 10) && (match flush with None => true | Some p => interval_ok p end) = true).
    { apply andb_true_iff. split; [unfold interval_ok; apply N.ltb_lt; apply N.div_str_pos; lia|]. destruct flush as [p|]; [|reflexivity]. unfold interval_ok. apply N.ltb_lt. assert (p <> 0) by congruence. lia. }
    rewrite Ok. reflexivity.
  - intros n H. unfold broadcast_capacity_ok. apply andb_true_iff. split; [apply N.ltb_lt|apply N.leb_le]; lia.
  - intros A T O bind local t l. unfold sv_try_bind. cbn [negb sv_transport sv_new]. destruct (bind_loop bind t l) as [t' tr]. destruct (local t'); discriminate.
  - intros [[|p]|] H; [congruence|reflexivity..].
  - intros n H. unfold sub_new_ok. assert (K : mpsc_capacity_ok n = true) by (unfold mpsc_capacity_ok; apply andb_true_iff; split; [apply N.ltb_lt|apply N.leb_le]; lia). rewrite K. reflexivity.
Qed.

(** ** C70 *)
Lemma ch_run_snoc {S R} : forall (l : list (ch_op S R)) o c,
  ch_run c (l ++ [o]) = let (c1, rs) := ch_run c l in let (c2, r) := ch_act c1 o in (c2, rs ++ [r]).
Proof.
  induction l as [|a l IH]; intros o c; cbn [app ch_run].
  - destruct (ch_act c o). reflexivity.
  - destruct (ch_act c a) as [c1 r]. rewrite IH. destruct (ch_run c1 l) as [c2 rs]. destruct (ch_act c2 o). reflexivity.
Qed.

(** One direction. *)
Definition dir_ok {X} (cap : N) (m : mpsc X) (sent got : list X) (txd rxd : Prop) : Prop :=
  mp_cap m = cap /\ (mp_tx m = false <-> txd) /\ (mp_rx m = false <-> rxd) /\
  (exists rest, sent = got ++ rest) /\ (mp_rx m = true -> sent = got ++ mp_q m) /\ (mp_rx m = false -> mp_q m = []).

Lemma chan_inv {S R} : forall ops txb rxb (c0 : chans S R) c rs, channel txb rxb = Some c0 -> ch_run c0 ops = (c, rs) ->
  dir_ok txb (ch_a c) (sent1 rs) (got2 rs) (In CDrop1 ops) (In CDrop2 ops) /\ dir_ok rxb (ch_b c) (sent2 rs) (got1 rs) (In CDrop2 ops) (In CDrop1 ops).
Proof.
  induction ops as [|o ops IH] using rev_ind; intros txb rxb c0 c rs C Rn.
  - unfold channel in C. destruct (_ && _); [|discriminate]. injection C as <-. cbn [ch_run] in Rn. injection Rn as <- <-.
    split; unfold dir_ok; cbn; (repeat split; auto; try discriminate; try (intros []); exists []; reflexivity).
  - rewrite ch_run_snoc in Rn. destruct (ch_run c0 ops) as [c1 rs1] eqn:R1. destruct (ch_act c1 o) as [c2 r] eqn:A. injection Rn as <- <-.
    destruct (IH _ _ _ _ _ C R1) as [Ha Hb]. clear IH C R1.
    assert (S1 : forall (l : list (ch_res S R)) r, sent1 (l ++ [r]) = sent1 l ++ sent1 [r]) by (intros; unfold sent1; apply flat_map_app).
    assert (S2 : forall (l : list (ch_res S R)) r, sent2 (l ++ [r]) = sent2 l ++ sent2 [r]) by (intros; unfold sent2; apply flat_map_app).
    assert (G1 : forall (l : list (ch_res S R)) r, got1 (l ++ [r]) = got1 l ++ got1 [r]) by (intros; unfold got1; apply flat_map_app).
    assert (G2 : forall (l : list (ch_res S R)) r, got2 (l ++ [r]) = got2 l ++ got2 [r]) by (intros; unfold got2; apply flat_map_app).
    rewrite S1, S2, G1, G2. clear S1 S2 G1 G2.
    assert (Id : forall X cap (m : mpsc X) s g txd rxd txd' rxd', (txd <-> txd') -> (rxd <-> rxd') -> dir_ok cap m s g txd rxd -> dir_ok cap m (s ++ []) (g ++ []) txd' rxd').
    { intros X cap m s g txd rxd txd' rxd' E1 E2 D. rewrite !app_nil_r. unfold dir_ok in *. rewrite <- E1, <- E2. exact D. }
    assert (Dn : forall d : ch_op S R, o <> d -> (In d ops <-> In d (ops ++ [o]))).
    { intros d N. rewrite in_app_iff. cbn [In]. intuition congruence. }
    assert (Snd : forall X cap (m m' : mpsc X) x r s g txd rxd, mp_send m x = (m', r) -> dir_ok cap m s g txd rxd -> dir_ok cap m' (s ++ match r with Sent => [x] | _ => [] end) (g ++ []) txd rxd).
    { intros X cap m m' x q s g txd rxd M (D1 & D2 & D3 & (rest & D4) & D5 & D6). unfold mp_send in M. rewrite !app_nil_r. destruct (mp_rx m) eqn:Rx; cbn [negb] in M.
      - destruct (mp_cap m <=? blen (mp_q m)); injection M as <- <-.
        + rewrite app_nil_r. unfold dir_ok. rewrite Rx. eauto 10.
        + unfold dir_ok. cbn [mp_cap mp_tx mp_rx mp_q]. repeat split; try tauto.
          * exists (rest ++ [x]). rewrite D4, app_assoc. reflexivity.
          * intros _. rewrite app_assoc, <- D5; auto.
          * discriminate.
      - injection M as <- <-. rewrite app_nil_r. unfold dir_ok. rewrite Rx. eauto 10. }
    assert (Rcv : forall X cap (m m' : mpsc X) r s g txd rxd, mp_recv m = (m', r) -> mp_rx m = true -> dir_ok cap m s g txd rxd -> dir_ok cap m' (s ++ []) (g ++ match r with Got x => [x] | _ => [] end) txd rxd).
    { intros X cap m m' q s g txd rxd M Rx (D1 & D2 & D3 & (rest & D4) & D5 & D6). unfold mp_recv in M. rewrite app_nil_r. destruct (mp_q m) as [|x xs] eqn:Q; injection M as <- <-.
      - unfold dir_ok. rewrite Rx in *. rewrite Q. destruct (mp_tx m); rewrite app_nil_r; eauto 10.
      - unfold dir_ok. cbn [mp_cap mp_tx mp_rx mp_q]. rewrite Rx in *. repeat split; try tauto.
        + exists xs. rewrite <- app_assoc. apply D5. reflexivity.
        + intros _. rewrite <- app_assoc. apply D5. reflexivity.
        + discriminate. }
    assert (Alive1 : mp_tx (ch_a c1) = true -> mp_rx (ch_b c1) = true).
    { destruct Ha as (_ & T & _), Hb as (_ & _ & X & _). intros H. destruct (mp_rx (ch_b c1)) eqn:E; [reflexivity|]. exfalso. assert (F : mp_tx (ch_a c1) = false) by (apply T; apply X; reflexivity). congruence. }
    assert (Alive2 : mp_tx (ch_b c1) = true -> mp_rx (ch_a c1) = true).
    { destruct Hb as (_ & T & _), Ha as (_ & _ & X & _). intros H. destruct (mp_rx (ch_a c1)) eqn:E; [reflexivity|]. exfalso. assert (F : mp_tx (ch_b c1) = false) by (apply T; apply X; reflexivity). congruence. }
    assert (None' : forall r0 : ch_res S R, r0 = RNone -> sent1 [r0] = [] /\ sent2 [r0] = [] /\ got1 [r0] = [] /\ got2 [r0] = []) by (intros r0 ->; auto).
    unfold ch_act in A. destruct o as [x| | |x| |].
    + destruct (mp_tx (ch_a c1)) eqn:T.
      * destruct (mp_send (ch_a c1) x) as [m q] eqn:M. injection A as <- <-. cbn [ch_a ch_b]. split; [|cbn; eapply Id; [apply Dn; discriminate..|exact Hb]].
        unfold dir_ok. rewrite <- !Dn by discriminate. pose proof (Snd _ _ _ _ _ _ _ _ _ _ M Ha) as K. destruct q; exact K.
      * injection A as <- <-. split; (eapply Id; [apply Dn; discriminate..|]); assumption.
    + destruct (mp_tx (ch_a c1)) eqn:T.
      * destruct (mp_recv (ch_b c1)) as [m q] eqn:M. injection A as <- <-. cbn [ch_a ch_b]. split; [cbn; eapply Id; [apply Dn; discriminate..|exact Ha]|].
        unfold dir_ok. rewrite <- !Dn by discriminate. pose proof (Rcv _ _ _ _ _ _ _ _ _ M (Alive1 eq_refl) Hb) as K. destruct q; exact K.
      * injection A as <- <-. split; (eapply Id; [apply Dn; discriminate..|]); assumption.
    + injection A as <- <-. cbn [ch_a ch_b]. change (sent1 [@RNone S R]) with (@nil S). change (sent2 [@RNone S R]) with (@nil R). change (got1 [@RNone S R]) with (@nil R). change (got2 [@RNone S R]) with (@nil S). rewrite !app_nil_r.
      assert (I1 : In CDrop1 (ops ++ [@CDrop1 S R])) by (apply in_or_app; right; left; reflexivity).
      destruct Ha as (D1 & D2 & D3 & D4 & D5 & D6), Hb as (F1 & F2 & F3 & F4 & F5 & F6). split; unfold dir_ok, mp_drop_tx, mp_drop_rx; cbn [mp_cap mp_tx mp_rx mp_q]; rewrite <- (Dn CDrop2) by discriminate.
      * repeat split; try tauto.
      * repeat split; try tauto. discriminate.
    + destruct (mp_tx (ch_b c1)) eqn:T.
      * destruct (mp_send (ch_b c1) x) as [m q] eqn:M. injection A as <- <-. cbn [ch_a ch_b]. split; [cbn; eapply Id; [apply Dn; discriminate..|exact Ha]|].
        unfold dir_ok. rewrite <- !Dn by discriminate. pose proof (Snd _ _ _ _ _ _ _ _ _ _ M Hb) as K. destruct q; exact K.
      * injection A as <- <-. split; (eapply Id; [apply Dn; discriminate..|]); assumption.
    + destruct (mp_tx (ch_b c1)) eqn:T.
      * destruct (mp_recv (ch_a c1)) as [m q] eqn:M. injection A as <- <-. cbn [ch_a ch_b]. split; [|cbn; eapply Id; [apply Dn; discriminate..|exact Hb]].
        unfold dir_ok. rewrite <- !Dn by discriminate. pose proof (Rcv _ _ _ _ _ _ _ _ _ M (Alive2 eq_refl) Ha) as K. destruct q; exact K.
      * injection A as <- <-. split; (eapply Id; [apply Dn; discriminate..|]); assumption.
    + injection A as <- <-. cbn [ch_a ch_b]. change (sent1 [@RNone S R]) with (@nil S). change (sent2 [@RNone S R]) with (@nil R). change (got1 [@RNone S R]) with (@nil R). change (got2 [@RNone S R]) with (@nil S). rewrite !app_nil_r.
      assert (I1 : In CDrop2 (ops ++ [@CDrop2 S R])) by (apply in_or_app; right; left; reflexivity).
      destruct Ha as (D1 & D2 & D3 & D4 & D5 & D6), Hb as (F1 & F2 & F3 & F4 & F5 & F6). split; unfold dir_ok, mp_drop_tx, mp_drop_rx; cbn [mp_cap mp_tx mp_rx mp_q]; rewrite <- (Dn CDrop1) by discriminate.
      * repeat split; try tauto. discriminate.
      * repeat split; try tauto.
Qed.

(*@prop C70: a bi-directional channel in any history of uses of its two ends: what one end receives is what the other sent, in order, without loss or duplication.  The next send is refused with
    Full iff [buffer] messages are on their way and with Closed iff the other end is gone; the next receive yields the oldest message on its way, else the end iff the other end is gone. *)
Lemma C70_channel_pf :
  forall (S R : Type) txb rxb (c0 : chans S R) ops c rs, channel txb rxb = Some c0 -> ch_run c0 ops = (c, rs) ->
  (exists q1, sent1 rs = got2 rs ++ q1 /\
    (~ In CDrop1 ops -> ~ In CDrop2 ops -> forall x, snd (ch_act c (CSend1 x)) = RSent1 x (if txb <=? blen q1 then Full else Sent)) /\
    (~ In CDrop1 ops -> In CDrop2 ops -> forall x, snd (ch_act c (CSend1 x)) = RSent1 x Closed) /\
    (~ In CDrop2 ops -> snd (ch_act c CRecv2) = RRecv2 (match q1 with x :: _ => Got x | [] => if in_dec_drop1 ops then End else Nothing end)))
  /\ (exists q2, sent2 rs = got1 rs ++ q2 /\
    (~ In CDrop2 ops -> ~ In CDrop1 ops -> forall x, snd (ch_act c (CSend2 x)) = RSent2 x (if rxb <=? blen q2 then Full else Sent)) /\
    (~ In CDrop2 ops -> In CDrop1 ops -> forall x, snd (ch_act c (CSend2 x)) = RSent2 x Closed) /\
    (~ In CDrop1 ops -> snd (ch_act c CRecv1) = RRecv1 (match q2 with x :: _ => Got x | [] => if in_dec_drop2 ops then End else Nothing end))).
Proof.
  intros S R txb rxb c0 ops c rs C Rn. destruct (chan_inv _ _ _ _ _ _ C Rn) as [(A1 & A2 & A3 & (ra & A4) & A5 & A6) (B1 & B2 & B3 & (rb & B4) & B5 & B6)].
  assert (Dec1 : in_dec_drop1 ops = true <-> In CDrop1 ops).
  { unfold in_dec_drop1. rewrite existsb_exists. split; [intros (o & I & E); destruct o; try discriminate; exact I|intros I; exists CDrop1; auto]. }
  assert (Dec2 : in_dec_drop2 ops = true <-> In CDrop2 ops).
  { unfold in_dec_drop2. rewrite existsb_exists. split; [intros (o & I & E); destruct o; try discriminate; exact I|intros I; exists CDrop2; auto]. }
  split.
  - exists (if mp_rx (ch_a c) then mp_q (ch_a c) else ra). split; [destruct (mp_rx (ch_a c)); auto|]. cbn [ch_act]. split; [|split].
    + intros N1 N2 x. destruct (mp_tx (ch_a c)) eqn:T; [|exfalso; apply N1, A2; reflexivity]. destruct (mp_rx (ch_a c)) eqn:X; [|exfalso; apply N2, A3; reflexivity].
      unfold mp_send. rewrite X, A1. cbn [negb]. destruct (txb <=? blen (mp_q (ch_a c))); reflexivity.
    + intros N1 N2 x. destruct (mp_tx (ch_a c)) eqn:T; [|exfalso; apply N1, A2; reflexivity]. apply A3 in N2. unfold mp_send. rewrite N2. reflexivity.
    + intros N2. destruct (mp_tx (ch_b c)) eqn:T; [|exfalso; apply N2, B2; reflexivity]. destruct (mp_rx (ch_a c)) eqn:X; [|exfalso; apply N2, A3; reflexivity].
      unfold mp_recv. destruct (mp_q (ch_a c)); [|reflexivity]. cbn [snd]. destruct (mp_tx (ch_a c)) eqn:Ta, (in_dec_drop1 ops) eqn:D; try reflexivity.
      * exfalso. assert (F : true = false) by (apply A2, Dec1; reflexivity). discriminate.
      * exfalso. assert (F : false = true) by (apply Dec1, A2; reflexivity). discriminate.
  - exists (if mp_rx (ch_b c) then mp_q (ch_b c) else rb). split; [destruct (mp_rx (ch_b c)); auto|]. cbn [ch_act]. split; [|split].
    + intros N1 N2 x. destruct (mp_tx (ch_b c)) eqn:T; [|exfalso; apply N1, B2; reflexivity]. destruct (mp_rx (ch_b c)) eqn:X; [|exfalso; apply N2, B3; reflexivity].
      unfold mp_send. rewrite X, B1. cbn [negb]. destruct (rxb <=? blen (mp_q (ch_b c))); reflexivity.
    + intros N1 N2 x. destruct (mp_tx (ch_b c)) eqn:T; [|exfalso; apply N1, B2; reflexivity]. apply B3 in N2. unfold mp_send. rewrite N2. reflexivity.
    + intros N2. destruct (mp_tx (ch_a c)) eqn:T; [|exfalso; apply N2, A2; reflexivity]. destruct (mp_rx (ch_b c)) eqn:X; [|exfalso; apply N2, B3; reflexivity].
      unfold mp_recv. destruct (mp_q (ch_b c)); [|reflexivity]. cbn [snd]. destruct (mp_tx (ch_b c)) eqn:Ta, (in_dec_drop2 ops) eqn:D; try reflexivity.
      * exfalso. assert (F : true = false) by (apply B2, Dec2; reflexivity). discriminate.
      * exfalso. assert (F : false = true) by (apply Dec2, B2; reflexivity). discriminate.
Qed.

(*@example *)
Lemma C70_example_pf :
  exists c0, @channel N N 2 1 = Some c0 /\
  snd (ch_run c0 [CSend1 5; CSend1 6; CSend1 7; CRecv2; CSend2 9; CSend2 10; CRecv1; CDrop1; CRecv2; CRecv2; CSend2 3]) =
  [RSent1 5 Sent; RSent1 6 Sent; RSent1 7 Full; RRecv2 (Got 5); RSent2 9 Sent; RSent2 10 Full; RRecv1 (Got 9); RNone; RRecv2 (Got 6); RRecv2 End; RSent2 3 Closed].
Proof. eexists. split; reflexivity. Qed.

(** ** C56 *)
Lemma pf_enable_all {A} {E : EqDec A} : forall id (a : A) c m, pf_enable id a c enable_ok m =
  (mkMa (mset id (pipe_of c) (ma_pipes m)) (sins a (ma_alias m)) 1500 [id] (mset id (a, id) (ma_rules m)) true, true).
Proof. intros. reflexivity. Qed.
Lemma pf_destroy_all {A} {E : EqDec A} : forall id (a : A) m, pf_destroy id a destroy_ok m =
  (mkMa (mdel id (ma_pipes m)) (sdel a (ma_alias m)) 16384 [] (ma_rules m) false, true).
Proof. intros. reflexivity. Qed.
Lemma sim_step_next : forall (A : Type) (E : EqDec A) os (st : simulator A * machine A) st' o r, sim_act os st o = (st', r) ->
     si_next (fst st) <= si_next (fst st') /\ (forall i, r = SimOk i -> i = si_next (fst st) /\ si_next (fst st') = i + 1)
     /\ (r = SimErr \/ r = SimDone -> si_next (fst st') = si_next (fst st))
     /\ (si_active (fst st) = [] -> si_active (fst st') = [] \/ exists i, r = SimOk i)
     /\ (si_active (fst st) = [] -> r <> SimPanic).
Proof.
  intros A E os [s m0] st' o r Hs. destruct o as [a c e d|a d]; cbn [sim_act] in Hs.
  - unfold sim_start in Hs. destruct (simulation_start os (si_next s) a c e m0) as [m1 ok]. destruct ok; cbn [negb] in Hs.
    + destruct (mget a (si_active s)) as [old|] eqn:G.
      * destruct (simulation_drop os old a d m1) as [m2 ok2]. injection Hs as <- <-. cbn [fst si_next si_active].
        split; [lia|]. split; [|split; [|split]].
        -- intros i. destruct ok2; [|discriminate]. intros [= <-]. auto.
        -- destruct ok2; intros [F|F]; discriminate.
        -- intros F. rewrite F in G. discriminate.
        -- intros F. rewrite F in G. discriminate.
      * injection Hs as <- <-. cbn [fst si_next si_active]. split; [lia|]. split; [|split; [|split]].
        -- intros i [= <-]. auto.
        -- intros [F|F]; discriminate.
        -- intros _. right. eexists. reflexivity.
        -- discriminate.
    + injection Hs as <- <-. cbn [fst]. split; [lia|]. repeat split; try discriminate. auto.
  - unfold sim_stop in Hs. destruct (mget a (si_active s)) as [old|] eqn:G.
    + destruct (simulation_drop os old a d m0) as [m2 ok2]. injection Hs as <- <-. cbn [fst si_next si_active]. split; [lia|].
      split; [destruct ok2; discriminate|]. split; [reflexivity|]. split; intros F; rewrite F in G; discriminate.
    + injection Hs as <- <-. cbn [fst]. split; [lia|]. repeat split; try discriminate. auto.
Qed.
Lemma sim_ids_from : forall (A : Type) (E : EqDec A) os ops (st0 st : simulator A * machine A) rs, sim_run os st0 ops = (st, rs) ->
     (forall i, In i (sim_ids rs) -> si_next (fst st0) <= i)
     /\ (forall l1 l2 l3 i j, sim_ids rs = l1 ++ i :: l2 ++ j :: l3 -> i < j)
     /\ (~ In SimPanic rs -> sim_ids rs = map (fun k => si_next (fst st0) + N.of_nat k) (seq 0 (List.length (sim_ids rs)))).
Proof.
  intros A E os. induction ops as [|o ops IH]; intros st0 st rs H; cbn [sim_run] in H.
  - injection H as <- <-. split; [intros i []|]. split; [intros [|? ?] ? ? ? ? F; discriminate|reflexivity].
  - destruct (sim_act os st0 o) as [st1 r] eqn:Ac. destruct (sim_run os st1 ops) as [st2 rs2] eqn:R2. injection H as <- <-.
    destruct (sim_step_next _ _ _ _ _ _ _ Ac) as (S1 & S2 & S3 & _). destruct (IH _ _ _ R2) as (I1 & I2 & I3). split; [|split].
    + intros i I. unfold sim_ids in I. cbn [flat_map] in I. apply in_app_or in I as [I|I]; [|specialize (I1 i I); lia].
      destruct r; try contradiction. destruct I as [<-|[]]. destruct (S2 id eq_refl). lia.
    + intros l1 l2 l3 i j F. unfold sim_ids in F. cbn [flat_map] in F. destruct r as [id| | |]; cbn [app] in F; try (eapply I2; exact F).
      destruct l1 as [|x l1]; injection F as -> F; [|eapply I2; exact F]. destruct (S2 i eq_refl) as [_ N]. assert (J : In j (sim_ids rs2)).
      { unfold sim_ids. rewrite F. apply in_or_app. right. left. reflexivity. } specialize (I1 j J). lia.
    + intros NP. assert (NP2 : ~ In SimPanic rs2) by (intros F; apply NP; right; exact F). specialize (I3 NP2).
      unfold sim_ids in *. cbn [flat_map]. destruct r as [id| | |]; cbn [app].
      * destruct (S2 id eq_refl) as [-> N]. cbn [List.length seq map]. f_equal; [lia|]. rewrite <- seq_shift, map_map. rewrite I3 at 1. apply map_ext. intros k. rewrite N. lia.
      * rewrite I3 at 1. apply map_ext. intros k. rewrite S3 by auto. reflexivity.
      * exfalso. apply NP. left. reflexivity.
      * rewrite I3 at 1. apply map_ext. intros k. rewrite S3 by auto. reflexivity.
Qed.

(*@prop C56 (ids): in every history of one Simulator, however made, on any platform and whatever commands fail, the ids returned by start are strictly increasing (so pairwise distinct); as long as no call panics, those of Simulator::new() are 1, 2, 3 and so on, without a gap, and never 0 in any case. *)
Lemma C56_ids_distinct_partial_pf :
  forall (A : Type) (E : EqDec A) os m ops s0 st rs, s0 = @sim_new A \/ s0 = @sim_default A -> sim_run os (s0, m) ops = (st, rs) ->
  (forall l1 l2 l3 i j, sim_ids rs = l1 ++ i :: l2 ++ j :: l3 -> i < j)
  /\ (s0 = @sim_new A -> (forall i, In i (sim_ids rs) -> 1 <= i)
      /\ (~ In SimPanic rs -> sim_ids rs = map N.of_nat (seq 1 (List.length (sim_ids rs))))).
Proof.
  intros A E os m ops s0 st rs _ H. destruct (sim_ids_from _ _ _ _ _ _ _ H) as (I1 & I2 & I3). split; [exact I2|].
  intros ->. split; [exact I1|]. intros NP. rewrite <- seq_shift, map_map. rewrite (I3 NP) at 1. apply map_ext. intros k. cbn [fst sim_new si_next]. lia.
Qed.

(*@prop C56 is false of a Simulator made with Simulator::default(): the id its first successful start returns, if any, is 0, and 0 is no pipe number: on macOS the start would have to have configured a pipe that cannot exist. *)
Lemma C56_default_id_refuted_pf :
  forall (A : Type) (E : EqDec A) os m ops st rs i l, sim_run os (@sim_default A, m) ops = (st, rs) -> sim_ids rs = i :: l ->
  i = 0 /\ ~ pipe_number i.
Proof.
  intros A E os m ops st rs i l H F.
  assert (G : forall ops (st0 st : simulator A * machine A) rs l, si_active (fst st0) = [] -> sim_run os st0 ops = (st, rs) -> sim_ids rs = i :: l -> i = si_next (fst st0)).
  { clear. induction ops as [|o ops IH]; intros st0 st rs l A0 H F; cbn [sim_run] in H.
    - injection H as <- <-. discriminate.
    - destruct (sim_act os st0 o) as [st1 r] eqn:Ac. destruct (sim_run os st1 ops) as [st2 rs2] eqn:R2. injection H as <- <-.
      destruct (sim_step_next _ _ _ _ _ _ _ Ac) as (_ & S2 & S3 & S4 & S5). unfold sim_ids in F. cbn [flat_map] in F.
      destruct r as [id| | |]; cbn [app] in F.
      + injection F as -> _. apply (S2 i eq_refl).
      + rewrite <- S3 by auto. destruct (S4 A0) as [A1|[? B]]; [|discriminate]. exact (IH _ _ _ _ A1 R2 F).
      + exfalso. apply (S5 A0). reflexivity.
      + rewrite <- S3 by auto. destruct (S4 A0) as [A1|[? B]]; [|discriminate]. exact (IH _ _ _ _ A1 R2 F). }
  assert (i = 0) as -> by exact (G _ (sim_default, m) _ _ _ eq_refl H F). split; [reflexivity|]. unfold pipe_number. lia.
Qed.

(*@prop C56 (macOS, what holds): when all commands work, starting a simulation on an endpoint that has none shapes the traffic to that endpoint as configured... *)
Lemma C56_first_start_partial_pf :
  forall (A : Type) (E : EqDec A) (s : simulator A) m a c d, mget a (si_active s) = None ->
  exists s' m', sim_start MacOS a c enable_ok d (s, m) = ((s', m'), SimOk (si_next s)) /\
  mget a (si_active s') = Some (si_next s) /\ shaped m' a (configured c).
Proof.
  intros A E s m a c d H. unfold sim_start. cbn [simulation_start]. rewrite pf_enable_all. cbn [negb]. rewrite H.
  eexists; eexists. split; [reflexivity|]. cbn [si_active]. split; [apply mget_set_eq|]. unfold shaped. cbn. split; [reflexivity|]. split.
  - unfold sins, smem. destruct (in_dec eq_dec a (ma_alias m)) as [I|N]; [exact I|]. apply in_or_app. right. left. reflexivity.
  - exists (si_next s), (si_next s). rewrite !mget_set_eq. auto.
Qed.

(*@prop C56 is false (macOS): ...but restarting a simulation on an endpoint, with all commands working, ends with the traffic to no endpoint being shaped at all, although start returned Ok. *)
Lemma C56_restart_destroys_refuted_pf :
  forall (A : Type) (E : EqDec A) (s : simulator A) m a c old, mget a (si_active s) = Some old ->
  exists s' m', sim_start MacOS a c enable_ok destroy_ok (s, m) = ((s', m'), SimOk (si_next s)) /\
  mget a (si_active s') = Some (si_next s) /\ forall b p, ~ shaped m' b p.
Proof.
  intros A E s m a c old H. unfold sim_start. cbn [simulation_start]. rewrite pf_enable_all. cbn [negb]. rewrite H.
  cbn [simulation_drop]. rewrite pf_destroy_all.
  eexists; eexists. split; [reflexivity|]. cbn [si_active]. split; [apply mget_set_eq|]. intros b p (F & _). discriminate.
Qed.

(*@prop C56 is false (macOS): starting a simulation on a second endpoint, or stopping one, ends the shaping of every other endpoint. *)
Lemma C56_others_destroyed_refuted_pf :
  forall (A : Type) (E : EqDec A) (s : simulator A) m a b c d p, b <> a ->
  (mget a (si_active s) = None -> mget (si_next s) (ma_rules m) = None ->
     forall st' r, sim_start MacOS a c enable_ok d (s, m) = (st', r) -> ~ shaped (snd st') b p)
  /\ (mget a (si_active s) <> None -> forall st' r, sim_stop MacOS a destroy_ok (s, m) = (st', r) -> ~ shaped (snd st') b p).
Proof.
  intros A E s m a b c d p N. split.
  - intros H Hr st' r. unfold sim_start. cbn [simulation_start]. rewrite pf_enable_all. cbn [negb]. rewrite H. intros [= <- <-].
    unfold shaped. cbn. intros (_ & _ & x & y & [<-|[]] & G & _). rewrite mget_set_eq in G. injection G as -> _. congruence.
  - intros H st' r. unfold sim_stop. destruct (mget a (si_active s)) as [old|]; [|congruence]. cbn [simulation_drop]. rewrite pf_destroy_all. intros [= <- <-].
    intros (F & _). discriminate.
Qed.

(*@prop C56 (stop): a stopped simulation is no longer listed and (macOS, all commands working) its endpoint's traffic is not shaped. *)
Lemma C56_stop_partial_pf :
  forall (A : Type) (E : EqDec A) os (s : simulator A) m a st' r, sim_stop os a destroy_ok (s, m) = (st', r) ->
  r = SimDone /\ mget a (si_active (fst st')) = None /\ (os = MacOS -> mget a (si_active s) <> None -> forall p, ~ shaped (snd st') a p).
Proof.
  intros A E os s m a st' r. unfold sim_stop. destruct (mget a (si_active s)) as [old|] eqn:G.
  - destruct os; cbn [simulation_drop]; [rewrite pf_destroy_all|]; intros [= <- <-]; cbn [fst snd si_active]; rewrite mget_del_eq.
    + repeat split; auto. intros _ _ p (F & _). discriminate.
    + repeat split; auto. discriminate.
  - intros [= <- <-]. cbn [fst snd]. split; [reflexivity|]. split; [exact G|]. congruence.
Qed.

(*@prop C56 (Linux): the simulator does nothing: start succeeds and the machine stays as it is. *)
Lemma C56_linux_noop_refuted_pf :
  forall (A : Type) (E : EqDec A) (s : simulator A) m a c e d, exists s', sim_start Linux a c e d (s, m) = ((s', m), SimOk (si_next s)).
Proof. intros. unfold sim_start. cbn [simulation_start negb]. destruct (mget a (si_active s)); eexists; reflexivity. Qed.

(*@example *)
Lemma C56_example_pf :
  let m0 := mkMa [] [] 16384 [] [] false in
  let cfg := mkSc (Some 50000000) (Some 1000) None [] in
  snd (sim_run MacOS (@sim_new N, m0) [SimStart 1 cfg enable_ok destroy_ok; SimStart 2 cfg (mkEe true true false true true true) destroy_ok; SimStart 2 cfg enable_ok destroy_ok; SimStart 1 cfg enable_ok destroy_ok; SimStop 1 destroy_ok; SimStop 1 destroy_ok])
    = [SimOk 1; SimErr; SimOk 2; SimOk 3; SimDone; SimDone]
  /\ snd (sim_run Linux (@sim_default N, m0) [SimStart 1 cfg enable_ok destroy_ok; SimStart 2 cfg enable_ok destroy_ok]) = [SimOk 0; SimOk 1].
Proof. split; reflexivity. Qed.
