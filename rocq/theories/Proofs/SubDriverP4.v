(** Subscriber: the invariant of SubDriverP3 holds in every run. *)
From Coq Require Import ZArith ZifyBool ZifyNat ZifyN Permutation.
From Verif Require Import Model.Base Model.Map Model.WirePubSub Model.Compression Model.Stats Model.Framed Model.WireAuth
  Model.Handshake Model.Utf8 Model.Backoff Model.JoinMap Model.PubDriver Model.SubDriver Spec.ReqSpec Spec.SubSpec Proofs.BaseP Proofs.MapP Proofs.SubDriverP Proofs.SubDriverP2 Proofs.SubDriverP3.
Local Open Scope N_scope.

Section P.
Variables (token : option bytes) (ingress initial : N) (D : decompressors).
Notation act := (sb_act token ingress initial D).
Notation run := (sb_run token ingress initial D).
Notation GI := (GI ingress).

Definition noopen (o : list uout) : Prop := forall k a, ~ In (UOpen k a) o.
Lemma ended_noopen o : (forall a, attempts_ended a o = 0%nat) -> noopen o.
Proof.
  intros H k a Hi. specialize (H a). unfold attempts_ended in H. apply length_zero_iff_nil in H.
  assert (X : In (UOpen k a) []); [|destruct X]. rewrite <- H. apply filter_In. split; [exact Hi|]. destruct (eq_dec a a); congruence.
Qed.
Lemma on_noopen k o : noopen o -> forall a, ~ In (UOpen k a) (on k o).
Proof. intros H a Hi. unfold on in Hi. apply filter_In in Hi. now apply (H k a). Qed.
Lemma proj_held s o s' : proj D s o s' -> noopen o ->
  (forall k x, mget k (sb_conns s') = Some x -> sc_held x = true -> exists y, mget k (sb_conns s) = Some y /\ sc_held y = true) /\
  (forall k, mget k (sb_conns s') = None -> mget k (sb_conns s) = None).
Proof.
  intros P N. split; intros k.
  - intros x G H. destruct (csts_held _ _ _ _ _ (P k)) as [A _]. destruct (A _ G H) as [?|[_ (a & Hi)]]; [assumption|]. exfalso. eapply on_noopen; eauto.
  - intros G. destruct (csts_held _ _ _ _ _ (P k)) as [_ A]. auto.
Qed.
Lemma GI_step L s o s' : GI L s -> proj D s o s' -> frame4 s s' -> uquiet o -> (forall k, tried k o = []) -> noopen o -> GI (L ++ o) s'.
Proof.
  intros I P F Q T N. destruct (proj_held _ _ _ P N) as [A B]. eapply GI_keep; eauto.
Qed.
Lemma frame_4 s s' : frame s s' -> frame4 s s'. Proof. intros (A & B & C & E & _). repeat split; auto. Qed.
Lemma GI_plain L s o s' : GI L s -> proj D s o s' -> frame4 s s' -> plain o -> GI (L ++ o) s'.
Proof. intros I P F (Q & A & T). eapply GI_step; eauto; [now apply quiet_uquiet|now apply ended_noopen]. Qed.

(** A command. *)
Lemma GI_cmd L s c q o s' : GI L s -> sb_cmdq s = c :: q -> proj D s o s' ->
  sb_cmdq s' = q -> sb_out s' = sb_out s -> sb_dropped s' = sb_dropped s -> same (sb_topics s') (after (sb_topics s) [c]) -> uquiet o -> noopen o ->
  (forall k x, mget k (sb_conns s') = Some x -> sc_held x = true -> tried k o = changes (sb_topics s) [c]) ->
  (forall k, mget k (sb_conns s') = None -> tried k o = []) -> GI (L ++ UCmd c :: o) s'.
Proof.
  intros I Eq P F1 F2 F3 F4 (Q1 & Q2 & Q3 & Q4 & Q5) N Hk Hf. destruct (proj_held _ _ _ P N) as [A B].
  destruct I as [c1 c2 c3 t1 t2 t3 o1 o2 o3 o4 o5]. pose proof (nodd_drop _ Q5) as Q6.
  assert (T0 : forall k o, tried k (UCmd c :: o) = tried k o) by reflexivity.
  assert (C0 : commands (UCmd c :: o) = [c]) by (change (c :: commands o = [c]); now rewrite Q1).
  assert (C2 : calls (UCmd c :: o) = []) by exact Q2. assert (C3 : queued (UCmd c :: o) = []) by exact Q3. assert (C4 : yields (UCmd c :: o) = []) by exact Q4.
  constructor; rewrite ?commands_app, ?calls_app, ?queued_app, ?yields_app, ?C0, ?C2, ?C3, ?C4, ?app_nil_r, ?F1, ?F2, ?F3; auto.
  - rewrite <- app_assoc. cbn [app]. rewrite <- Eq. exact c1.
  - rewrite in_app_iff. cbn [In]. rewrite c2. split; [tauto|]. intros [|[|]]; [assumption|discriminate|contradiction].
  - rewrite Eq in c3. unfold blen in *. cbn [length] in c3. lia.
  - intros k. rewrite after_app, (F4 k). apply (after_same [c]). exact t1.
  - intros k x G H. destruct (A _ _ G H) as (y & Gy & Hy). destruct (t2 _ _ Gy Hy) as (b & a0 & a & ts & -> & A1 & A2 & A3 & A4).
    exists b, a0, (a ++ UCmd c :: o), ts. rewrite tried_app, T0, commands_app, C0, changes_app, A3, (Hk _ _ G H). split; [now rewrite <- app_assoc|]. split; [exact A1|]. split; [exact A2|]. split.
    + rewrite <- app_assoc. f_equal. f_equal. now apply changes_same.
    + intros z. rewrite after_app, (F4 z). apply (after_same [c]). exact A4.
  - intros k G. rewrite tried_app, T0, (Hf _ G), app_nil_r. auto.
  - apply noful_app; [constructor; [exact Logic.I|exact Q5]|exact o4].
Qed.

Lemma command_GI L s c q o s' : SI s -> GI L s -> sb_cmdq s = c :: q -> sb_command initial c (sb_set_cmdq s q) = (s', o) -> GI (L ++ UCmd c :: o) s'.
Proof.
  intros HS I Eq H. assert (HS' : SI (sb_set_cmdq s q)) by now apply SI_cmdq.
  destruct (command_step initial D _ _ _ _ HS' H) as [HS2 P0]. assert (P : proj D s o s') by exact P0. clear P0.
  assert (nil : s' = sb_set_cmdq s q -> o = [] -> same (sb_topics s') (after (sb_topics s) [c]) -> changes (sb_topics s) [c] = [] -> GI (L ++ UCmd c :: o) s').
  { intros -> -> A B. apply (GI_cmd L s c q [] (sb_set_cmdq s q)); auto; [repeat split; auto|intros k a []]. }
  assert (tl : forall sc tps, s' = s' -> sb_tell initial sc (sb_pubs s) (sb_set_topics (sb_set_cmdq s q) tps) = (s', o) -> NoDup tps -> same tps (after (sb_topics s) [c]) -> changes (sb_topics s) [c] = [sc] -> GI (L ++ UCmd c :: o) s').
  { intros sc tps _ Ht Nt A B. destruct (tell_frame _ _ _ _ _ _ Ht) as (F & Q & E). pose proof (SI_topics _ tps HS' Nt) as HS3. destruct F as (F1 & F2 & F3 & F4 & F5).
    pose proof (fun k => tell_tried initial D sc k (sb_pubs s) _ _ _ HS3 (si_nd _ HS) ltac:(intros; cbn; apply in_mget; [apply (si_nd _ HS)|assumption]) Ht) as K.
    eapply GI_cmd; eauto.
    - now rewrite F4.
    - now apply quiet_uquiet.
    - now apply ended_noopen.
    - intros k x G Hh. rewrite B. apply K. rewrite active_held by exact HS. destruct (proj_held _ _ _ P (ended_noopen _ E)) as [X _]. eauto.
    - intros k G. apply K. rewrite active_held by exact HS. intros (y & Gy & _). destruct (proj_held _ _ _ P (ended_noopen _ E)) as [_ X]. apply X in G. congruence. }
  destruct c as [t|t|a|a|]; cbn [sb_command] in H; cbv zeta in H; cbn [sb_set_cmdq sb_topics sb_pubs sb_set_topics] in H.
  - destruct (smem t (sb_topics s)) eqn:M.
    + injection H as <- <-. apply nil; auto; cbn; [rewrite (sins_mem _ _ M); intros ?; reflexivity|now rewrite M].
    + eapply (tl (SSub t)); [reflexivity|exact H|apply nodup_sins, (si_top _ HS)|intros ?; reflexivity|]. cbn. now rewrite M.
  - destruct (smem t (sb_topics s)) eqn:M.
    + eapply (tl (SUnsub t)); [reflexivity|exact H|apply nodup_sdel, (si_top _ HS)|intros ?; reflexivity|]. cbn. now rewrite M.
    + injection H as <- <-. apply nil; auto; cbn; [rewrite (sdel_mem _ _ M); intros ?; reflexivity|now rewrite M].
  - destruct (mem a (sb_pubs s)) eqn:M; [injection H as <- <-; apply nil; auto; intros ?; reflexivity|].
    destruct (sb_connect a (sb_set_cmdq s q)) as [s1 o1] eqn:E1. destruct (sb_reset initial a s1) as [s2 o2] eqn:E2. injection H as <- <-.
    destruct (reset_plain _ _ _ _ _ E2) as [Pl F]. destruct F as (F1 & F2 & F3 & F4 & F5).
    unfold sb_connect in E1. destruct (jm_spawn a (sb_tasks (sb_set_cmdq s q))) as [j b]. injection E1 as <- <-. cbn in F1, F2, F3, F4.
    destruct Pl as (Q & E & T). assert (Q1 : uquiet (if b then [UConnect a] else [])) by (destruct b; repeat split; repeat constructor).
    assert (T1 : forall k, tried k ((if b then [UConnect a] else []) ++ o2) = []) by (intros k; rewrite tried_app, T; destruct b; reflexivity).
    eapply GI_cmd; eauto.
    + intros k. rewrite F4. reflexivity.
    + apply quiet_uquiet in Q. destruct Q as (U1 & U2 & U3 & U4 & U5), Q1 as (V1 & V2 & V3 & V4 & V5). unfold uquiet. rewrite commands_app, calls_app, queued_app, yields_app, U1, U2, U3, U4, V1, V2, V3, V4. repeat split; auto. apply Forall_app; auto.
    + intros k a' Hi. apply in_app_or in Hi. destruct Hi as [Hi|Hi]; [destruct b; [destruct Hi as [|[]]; discriminate|destruct Hi]|]. eapply ended_noopen; eauto.
  - destruct (mget a (sb_pubs s)) as [st|] eqn:M; [|injection H as <- <-; apply nil; auto; intros ?; reflexivity].
    destruct (sb_release (Some st) (sb_set_cmdq s q)) as [s1 o1] eqn:E1. injection H as <- <-.
    destruct (release_frame _ _ _ _ E1) as (F1 & F2 & F3 & F4 & F5). destruct (release_plain _ _ _ _ E1) as (Q & E & T).
    eapply GI_cmd; eauto.
    + intros k. cbn. rewrite F4. reflexivity.
    + now apply quiet_uquiet.
    + now apply ended_noopen.
  - injection H as <- <-. apply nil; auto; intros ?; reflexivity.
Qed.

Lemma connected_GI L s a order o s' : SI s -> GI L s -> sb_connected a order s = (s', o) -> GI (L ++ o) s'.
Proof.
  intros HS I H. destruct (connected_step D _ _ _ _ _ HS H) as [HS2 P]. unfold sb_connected in H.
  assert (K : (let cid := sb_next s in let (x, o) := sb_greet cid (arrange order (sb_topics s)) (sc_new a) in
     (mkSb (sb_cmdq s) (sb_out s) (sb_dropped s) (sb_tasks s) (sb_topics s) (mset a (PActive cid) (sb_pubs s)) (mset a cid (sb_stats s)) (mset cid x (sb_conns s)) (cid + 1), UOpen cid a :: o)) = (s', o)
    -> GI (L ++ o) s').
  { cbv zeta. destruct (sb_greet (sb_next s) (arrange order (sb_topics s)) (sc_new a)) as [x o1] eqn:G. intros [= <- <-].
    destruct (greet_tried _ _ _ _ _ G) as (Q & E & T & T').
    assert (Fr : mget (sb_next s) (sb_conns s) = None).
    { destruct (mget (sb_next s) (sb_conns s)) eqn:Z; [|reflexivity]. apply (si_next _ HS), N.lt_irrefl in Z. destruct Z. }
    destruct (quiet_uquiet _ Q) as (Q1 & Q2 & Q3 & Q4 & Q5). pose proof (nodd_drop _ Q5) as Q6.
    destruct I as [c1 c2 c3 t1 t2 t3 g1 g2 g3 g4 g5].
    assert (C0 : commands (UOpen (sb_next s) a :: o1) = []) by exact Q1.
    assert (C2 : calls (UOpen (sb_next s) a :: o1) = []) by exact Q2. assert (C3 : queued (UOpen (sb_next s) a :: o1) = []) by exact Q3. assert (C4 : yields (UOpen (sb_next s) a :: o1) = []) by exact Q4.
    assert (T0 : forall k, tried k (UOpen (sb_next s) a :: o1) = tried k o1) by reflexivity.
    constructor; cbn [sb_cmdq sb_out sb_dropped sb_topics sb_conns]; rewrite ?commands_app, ?calls_app, ?queued_app, ?yields_app, ?C0, ?C2, ?C3, ?C4, ?app_nil_r; auto.
    - rewrite in_app_iff. cbn [In]. rewrite c2. split; [tauto|]. intros [|[|]]; [assumption|discriminate|contradiction].
    - intros k y. rewrite mget_set. destruct (eq_dec k (sb_next s)) as [->|N].
      + intros _ _. exists L, a, o1, (arrange order (sb_topics s)). split; [reflexivity|]. split; [apply arrange_nodup, (si_top _ HS)|].
        rewrite Q1. cbn [changes after]. split; [intros t; rewrite arrange_in; apply t1|]. split; [|intros t; now rewrite arrange_in].
        rewrite tried_app, T0, T, (t3 _ Fr). now rewrite app_nil_r.
      + intros Gy Hy. destruct (t2 _ _ Gy Hy) as (b & a0 & a1 & ts & -> & A & B & C & F).
        exists b, a0, (a1 ++ UOpen (sb_next s) a :: o1), ts. rewrite tried_app, T0, T', app_nil_r, commands_app, C0, app_nil_r by exact N. split; [now rewrite <- app_assoc|]. auto.
    - intros k. rewrite mget_set. destruct (eq_dec k (sb_next s)) as [->|N]; [discriminate|]. intros Gk. rewrite tried_app, T0, T', app_nil_r by exact N. auto.
    - apply noful_app; [constructor; [exact Logic.I|exact Q5]|exact g4]. }
  destruct (mget a (sb_pubs s)) as [[c|b]|] eqn:Ga; [|exact (K H)..]. injection H as <- <-.
  eapply GI_step; eauto; [repeat split|repeat split; repeat constructor|intros k b [|[]]; discriminate].
Qed.

Lemma GI_tasks L s j : GI L s -> GI L (sb_set_tasks s j).
Proof. intros []; constructor; auto. Qed.
Lemma GI_setpubs L s j : GI L s -> GI L (sb_set_pubs s j).
Proof. intros []; constructor; auto. Qed.

Lemma join_GI L s k r order o s' b : SI s -> GI L s -> sb_join token k r order s = (s', o, b) -> GI (L ++ o) s'.
Proof.
  intros HS I. unfold sb_join. destruct (nth_error (jm_tasks (sb_tasks s)) k) as [a|]; [|intros [= <- <- <-]; now rewrite app_nil_r].
  assert (F : forall j z, match z with UConnectFailed _ | UTaskPanic _ => True | _ => False end -> GI (L ++ [z]) (sb_set_tasks s j)).
  { intros j z Hz. eapply (GI_step L s); [exact I| | | | |].
    - apply proj_same; [reflexivity|]. intros cid. destruct z; try contradiction; reflexivity.
    - repeat split.
    - destruct z; try contradiction; repeat split; repeat constructor.
    - destruct z; try contradiction; reflexivity.
    - intros k' a' [|[]]. destruct z; try contradiction; discriminate. }
  destruct r as [| |ok input].
  - intros [= <- <- <-]. now apply F.
  - intros [= <- <- <-]. now apply F.
  - destruct (auth_client token ok input) as [[[| | |] w] rest].
    + match goal with |- (let (_, _) := sb_connected _ _ ?q in _) = _ -> _ => set (q0 := q) end.
      destruct (sb_connected a order q0) as [s2 o2] eqn:E. intros [= <- <- <-]. eapply connected_GI; [| |exact E]; [now apply SI_tasks|now apply GI_tasks].
    + intros [= <- <- <-]. now apply F.
    + intros [= <- <- <-]. now apply F.
    + intros [= <- <- <-]. now rewrite app_nil_r.
Qed.

Lemma entry_GI L s a now o s' b : SI s -> GI L s -> sb_entry ingress initial D a now s = (s', o, b) -> GI (L ++ o) s'.
Proof.
  intros HS I H. destruct (entry_step ingress initial D _ _ _ _ _ _ HS H) as [HS2 P]. revert H. unfold sb_entry.
  destruct (mget a (sb_pubs s)) as [[cid|bo]|] eqn:Ga.
  - destruct (si_act _ HS _ _ Ga) as (x & Gx & Ax & Hx). rewrite Gx. destruct (sc_in x) as [|m rest] eqn:Ei.
    + destruct (sc_alive x); [intros [= <- <- <-]; now rewrite app_nil_r|].
      destruct (sb_reset initial a s) as [s1 o1] eqn:R. intros [= <- <- <-]. destruct (reset_plain _ _ _ _ _ R) as [A B].
      eapply GI_plain; eauto. now apply frame_4.
    + cbv zeta. set (s1 := sb_set_conns s (mset cid (sc_set_in x rest) (sb_conns s))).
      destruct (try_decompress D (tm_ctype m) (tm_payload m)) as [p|] eqn:T.
      2:{ intros [= <- <- <-]. eapply GI_plain; eauto; [repeat split|now apply plain_one]. }
      unfold sb_pass. change (sb_dropped s1) with (sb_dropped s). change (sb_out s1) with (sb_out s).
      assert (Hh : forall y k, mget k (sb_conns s1) = Some y -> sc_held y = true -> exists z, mget k (sb_conns s) = Some z /\ sc_held z = true).
      { intros y k. cbn. rewrite mget_set. destruct (eq_dec k cid) as [->|]; [|eauto]. intros _ _. eauto. }
      assert (Hn : forall k, mget k (sb_conns s1) = None -> mget k (sb_conns s) = None).
      { intros k. cbn. rewrite mget_set. destruct (eq_dec k cid); [discriminate|auto]. }
      assert (Tr : forall L, (forall k y, mget k (sb_conns s) = Some y -> sc_held y = true -> exists b0 a0 a1 ts,
          L = b0 ++ UOpen k a0 :: a1 /\ NoDup ts /\ same ts (after [] (commands b0)) /\ tried k L = map SSub ts ++ changes ts (commands a1) /\ same (sb_topics s) (after ts (commands a1))) ->
        forall r k y, mget k (sb_conns s1) = Some y -> sc_held y = true -> exists b0 a0 a1 ts,
          L ++ [UDeliver cid m a p r] = b0 ++ UOpen k a0 :: a1 /\ NoDup ts /\ same ts (after [] (commands b0)) /\ tried k (L ++ [UDeliver cid m a p r]) = map SSub ts ++ changes ts (commands a1) /\ same (sb_topics s1) (after ts (commands a1))).
      { intros L0 t2 r k y G Hy. destruct (Hh _ _ G Hy) as (z & Gz & Hz). destruct (t2 _ _ Gz Hz) as (b0 & a0 & a1 & ts & -> & A & B & C & E).
        exists b0, a0, (a1 ++ [UDeliver cid m a p r]), ts. rewrite tried_app, commands_app. cbn [tried commands flat_map app]. rewrite !app_nil_r. split; [now rewrite <- app_assoc|]. auto. }
      destruct I as [c1 c2 c3 t1 t2 t3 g1 g2 g3 g4 g5].
      assert (Ev : forall r, match r with TSent => True | TFull => blen (queued L) = blen (yields L) + ingress | TClosed => In UDropped L end ->
        every (fun b z => match z with UDeliver _ _ _ _ TFull => blen (queued b) = blen (yields b) + ingress | UDeliver _ _ _ _ TClosed => In UDropped b | _ => True end) (L ++ [UDeliver cid m a p r])).
      { intros r Hr. apply every_app; [exact g4|]. intros b0 z a0 E. destruct b0 as [|? b0]; [|destruct b0; discriminate]. injection E as <- _. rewrite app_nil_r. destruct r; auto. }
      assert (Ed : exists v, sb_dropped s = v) by eauto. destruct Ed as [v Ed]. rewrite Ed.
      destruct v; [|destruct (N.ltb_spec (blen (sb_out s)) ingress) as [Lt|Ge]]; intros [= <- <- <-];
        (constructor; cbn [sb_set_out sb_cmdq sb_out sb_dropped sb_topics sb_conns]; rewrite ?commands_app, ?calls_app, ?queued_app, ?yields_app; cbn [commands calls queued yields flat_map]; rewrite ?app_nil_r; auto;
         try (intros k y G Hy; exact (Tr L t2 _ k y G Hy)); try (intros k G; rewrite tried_app; cbn [tried flat_map]; rewrite app_nil_r; apply t3, Hn, G);
         try (rewrite in_app_iff; cbn [In]; change (sb_dropped s1) with (sb_dropped s); rewrite c2; split; [tauto|]; intros [|[|]]; [assumption|discriminate|contradiction]);
         try (apply Ev); auto).
      * now apply c2.
      * intros _. rewrite (g1 Ed). now rewrite <- app_assoc.
      * destruct g2 as [r E]. rewrite E. exists (r ++ [(cid, a, tm_topic m, p)]). now rewrite <- app_assoc.
      * change (sb_dropped s1) with (sb_dropped s). rewrite Ed. discriminate.
      * rewrite blen_app. unfold blen at 2. cbn [length]. lia.
      * rewrite (g1 Ed), blen_app. lia.
  - destruct (bo_poll now bo) as [b' [d| | |]].
    + cbv zeta. destruct (jm_contains a (sb_tasks s)); [intros [= <- <- <-]; rewrite app_nil_r; now apply GI_setpubs|].
      unfold sb_connect. destruct (jm_spawn a _) as [j w]. intros [= <- <- <-]. eapply GI_step; eauto; [repeat split|destruct w; repeat split; repeat constructor|destruct w; reflexivity|].
      intros k a'. destruct w; [intros [|[]]; discriminate|intros []].
    + intros [= <- <- <-]. eapply GI_plain; eauto; [repeat split|now apply plain_one].
    + intros [= <- <- <-]. rewrite app_nil_r; now apply GI_setpubs.
    + intros [= <- <- <-]. now rewrite app_nil_r.
  - intros [= <- <- <-]. now rewrite app_nil_r.
Qed.

Lemma dialled_eq a : dialled a = if unspecified a then set_localhost a else a.
Proof. destruct a as [[|ip] p|[|ip] p fl sc|p]; reflexivity. Qed.
Lemma meaning_command f c : api_command f = inl c -> meaning f = [c].
Proof.
  destruct f as [t x|t x|t [x|]|t [x|]]; cbn [api_command meaning]; rewrite ?dialled_eq; try discriminate; try destruct (starts_with MSG x); try discriminate; intros [= <-]; reflexivity.
Qed.

Lemma act_GI L s ev o s' : SI s -> GI L s -> act s ev = (s', o) -> GI (L ++ o) s'.
Proof.
  intros HS I H. destruct (act_step token ingress initial D _ _ _ _ HS H) as [HS2 P]. revert H.
  destruct ev as [cid e|a now| |k r order|f| |]; cbn [sb_act].
  - unfold sb_session. destruct (mget cid (sb_conns s)) as [x|] eqn:Gx; [|intros [= <- <-]; now rewrite app_nil_r].
    destruct (sc_alive x); [|intros [= <- <-]; now rewrite app_nil_r]. destruct (ss_iter cid e x) as [[x' o'] r'] eqn:E. intros [= <- <-].
    eapply GI_plain; [exact I|exact P|repeat split|exact (ss_iter_plain _ _ _ _ _ _ E)].
  - destruct (sb_entry ingress initial D a now s) as [[s1 o1] r] eqn:E. intros [= <- <-]. exact (entry_GI _ _ _ _ _ _ _ HS I E).
  - unfold sb_next_command. destruct (sb_cmdq s) as [|c q] eqn:Eq; [intros [= <- <-]; now rewrite app_nil_r|].
    destruct (sb_command initial c (sb_set_cmdq s q)) as [s1 o1] eqn:E. intros [= <- <-]. exact (command_GI _ _ _ _ _ _ HS I Eq E).
  - destruct (sb_join token k r order s) as [[s1 o1] b] eqn:E. intros [= <- <-]. exact (join_GI _ _ _ _ _ _ _ _ HS I E).
  - unfold sb_call. destruct (sb_dropped s) eqn:Ed; [intros [= <- <-]; now rewrite app_nil_r|].
    destruct (api_command f) as [c|r] eqn:Ec.
    + destruct (N.ltb_spec (blen (sb_cmdq s)) COMMAND_CAP) as [Lt|Ge]; intros [= <- <-].
      * destruct I as [c1 c2 c3 t1 t2 t3 g1 g2 g3 g4 g5]. constructor; cbn [sb_set_cmdq sb_cmdq sb_out sb_dropped sb_topics sb_conns]; rewrite ?commands_app, ?calls_app, ?queued_app, ?yields_app; cbn [commands calls queued yields flat_map]; rewrite ?app_nil_r; auto.
        -- destruct c1 as (tail & A & [[B C]|[C _]]); [|congruence]. subst tail. rewrite app_nil_r in A. exists []. rewrite flat_map_app, app_nil_r, app_assoc, A. cbn [flat_map]. rewrite (meaning_command _ _ Ec). split; [reflexivity|auto].
        -- rewrite in_app_iff, c2. cbn [In]. split; [tauto|]. intros [|[|]]; [assumption|discriminate|contradiction].
        -- rewrite blen_app. unfold blen at 2. cbn [length]. lia.
        -- intros k y G Hy. destruct (t2 _ _ G Hy) as (b0 & a0 & a1 & ts & -> & A & B & C & E).
           exists b0, a0, (a1 ++ [UApi f AOk]), ts. rewrite tried_app, commands_app. cbn [tried commands flat_map app]. rewrite !app_nil_r. split; [now rewrite <- app_assoc|]. auto.
        -- intros k G. rewrite tried_app. cbn [tried flat_map]. rewrite app_nil_r. auto.
        -- apply noful_app; [repeat constructor|exact g4].
      * eapply GI_step; eauto; [repeat split|destruct (api_try f); repeat split; repeat constructor|intros k a [|[]]; discriminate].
    + intros [= <- <-]. assert (r <> AOk).
      { destruct f as [t x|t x|t [x|]|t [x|]]; cbn in Ec; try discriminate; try destruct (starts_with MSG x); congruence. }
      eapply GI_step; eauto; [repeat split|destruct r; try contradiction; repeat split; repeat constructor|intros k a [|[]]; discriminate].
  - unfold sb_take. destruct (sb_out s) as [|[[[c a] t] p] q] eqn:Eo; intros [= <- <-]; [now rewrite app_nil_r|].
    destruct I as [c1 c2 c3 t1 t2 t3 g1 g2 g3 g4 g5]. constructor; cbn [sb_set_out sb_cmdq sb_out sb_dropped sb_topics sb_conns]; rewrite ?commands_app, ?calls_app, ?queued_app, ?yields_app; cbn [commands calls queued yields flat_map]; rewrite ?app_nil_r; auto.
    + rewrite in_app_iff, c2. cbn [In]. split; [tauto|]. intros [|[|]]; [assumption|discriminate|contradiction].
    + intros k y G Hy. destruct (t2 _ _ G Hy) as (b0 & a0 & a1 & ts & -> & A & B & C & E).
      exists b0, a0, (a1 ++ [UYield c a t p]), ts. rewrite tried_app, commands_app. cbn [tried commands flat_map app]. rewrite !app_nil_r. split; [now rewrite <- app_assoc|]. auto.
    + intros k G. rewrite tried_app. cbn [tried flat_map]. rewrite app_nil_r. auto.
    + intros Hd. rewrite (g1 Hd), Eo, <- app_assoc. reflexivity.
    + destruct (sb_dropped s) eqn:Ed; [specialize (g3 eq_refl); congruence|]. exists q. rewrite (g1 eq_refl), Eo, <- app_assoc. reflexivity.
    + intros Hd. rewrite (g3 Hd) in Eo. discriminate.
    + apply noful_app; [repeat constructor|exact g4].
    + rewrite Eo in g5. unfold blen in *. cbn [length] in g5. lia.
  - unfold sb_drop. destruct (sb_dropped s) eqn:Ed; intros [= <- <-]; [now rewrite app_nil_r|].
    destruct I as [c1 c2 c3 t1 t2 t3 g1 g2 g3 g4 g5]. constructor; cbn [sb_set_out sb_cmdq sb_out sb_dropped sb_topics sb_conns]; rewrite ?commands_app, ?calls_app, ?queued_app, ?yields_app; cbn [commands calls queued yields flat_map]; rewrite ?app_nil_r; auto.
    + destruct c1 as (tail & A & [[B C]|[C _]]); [|congruence]. subst tail. rewrite app_nil_r in A.
      destruct (_ <? _); [exists [CShutdown]; rewrite app_assoc, A|exists []; rewrite app_nil_r]; auto.
    + split; [intros _; apply in_or_app; right; now left|reflexivity].
    + destruct (N.ltb_spec (blen (sb_cmdq s)) COMMAND_CAP); [|exact c3]. rewrite blen_app. unfold blen at 2. cbn [length]. lia.
    + intros k y G Hy. destruct (t2 _ _ G Hy) as (b0 & a0 & a1 & ts & -> & A & B & C & E).
      exists b0, a0, (a1 ++ [UDropped]), ts. rewrite tried_app, commands_app. cbn [tried commands flat_map app]. rewrite !app_nil_r. split; [now rewrite <- app_assoc|]. auto.
    + intros k G. rewrite tried_app. cbn [tried flat_map]. rewrite app_nil_r. auto.
    + discriminate.
    + apply every_app; [exact g4|]. intros b0 z a0 E. destruct b0 as [|? b0]; [|destruct b0; discriminate]. injection E as <- _. exact Logic.I.
    + apply N.le_0_l.
Qed.
Lemma GI_init : GI [] sb_init.
Proof.
  constructor.
  - exists []. split; [reflexivity|]. left. split; reflexivity.
  - split; [discriminate|intros []].
  - apply N.le_0_l.
  - intros k. reflexivity.
  - intros k x G. discriminate G.
  - reflexivity.
  - reflexivity.
  - exists []. reflexivity.
  - discriminate.
  - apply every_nil.
  - apply N.le_0_l.
Qed.
Lemma run_GI evs s L : run sb_init evs = (s, L) -> GI L s.
Proof. apply (run_inv token ingress initial D GI); [exact GI_init|]. intros. eapply act_GI; eauto. Qed.
End P.
