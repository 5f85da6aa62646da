(** * Proofs about the message exchange *)
From Coq Require Import List Bool Arith Sorted Lia.
From Verif Require Import MpiModel MpiSpec.
Import ListNotations.

Lemma memb_In i l : memb i l = true <-> In i l.
Proof. unfold memb. rewrite existsb_exists. split; [intros (x & Hx & E); apply Nat.eqb_eq in E; subst; exact Hx|intros H; exists i; split; [exact H|apply Nat.eqb_refl]]. Qed.
Lemma memb_not i l : memb i l = false <-> ~ In i l.
Proof. rewrite <- memb_In. destruct (memb i l); split; congruence. Qed.
Lemma upd_same {X} i (x : X) f : upd i x f i = x.
Proof. unfold upd. rewrite Nat.eqb_refl. reflexivity. Qed.
Lemma upd_other {X} i j (x : X) f : j <> i -> upd i x f j = f j.
Proof. unfold upd. intros H. apply Nat.eqb_neq in H. rewrite H. reflexivity. Qed.

Section Proofs.
Context {O : Type}.
Variable n : nat.
Variable nbrs : nat -> list nat.
Variable payload : nat -> list (list (list O)) -> nat -> list O.
Variable dummy : O.
Variable calls : nat.
Hypothesis Net : network n nbrs.
Notation step := (step n nbrs payload dummy calls false).
Notation ideal := (ideal n nbrs payload).
Notation msg := (msg (O := O)).
Notation body := (body (O := O)).
Notation state := (state (O := O)).
Notation proc := (proc (O := O)).

(** What [s] addresses to [r] in its call number [t]. *)
Definition slot (s r t : nat) : list O := payload s (ideal t s) r.

(** ** Channels *)
Definition chan (s r g : nat) (ms : list msg) : list body := map m_body (filter (on s r g) ms).
Lemma on_iff s r g (m : msg) : on s r g m = true <-> m_from m = s /\ m_to m = r /\ m_tag m = g.
Proof. unfold on. rewrite !andb_true_iff, !Nat.eqb_eq. tauto. Qed.
Lemma chan_snoc s r g ms m : chan s r g (ms ++ [m]) = chan s r g ms ++ (if on s r g m then [m_body m] else []).
Proof. unfold chan. rewrite filter_app, map_app. cbn [filter]. destruct (on s r g m); reflexivity. Qed.
Lemma take_none s r g ms : take s r g ms = None <-> chan s r g ms = [].
Proof.
  induction ms as [|m ms IH]; [split; reflexivity|]. unfold chan in *. cbn [take filter]. destruct (on s r g m); [split; discriminate|].
  rewrite <- IH. destruct (take s r g ms); split; intros H; try discriminate H; reflexivity.
Qed.
Lemma take_some s r g ms b ms' : take s r g ms = Some (b, ms') ->
  chan s r g ms = b :: chan s r g ms' /\ forall s' r' g', (s', r', g') <> (s, r, g) -> chan s' r' g' ms' = chan s' r' g' ms.
Proof.
  revert ms'. induction ms as [|m ms IH]; intros ms' E; [discriminate|]. unfold chan in *. cbn [take filter] in *. destruct (on s r g m) eqn:Eo.
  - injection E as <- <-. split; [reflexivity|]. intros s' r' g' Ne. destruct (on s' r' g' m) eqn:E'; [|reflexivity]. exfalso.
    apply on_iff in Eo, E'. destruct Eo as (<- & <- & <-), E' as (<- & <- & <-). apply Ne. reflexivity.
  - destruct (take s r g ms) as [[b' t]|] eqn:Et; [|discriminate]. cbn [option_map fst snd] in E. injection E as <- <-. destruct (IH t eq_refl) as [I1 I2].
    cbn [filter]. rewrite Eo. split; [exact I1|]. intros s' r' g' Ne. specialize (I2 s' r' g' Ne). destruct (on s' r' g' m); cbn [map]; [f_equal|]; exact I2.
Qed.
Lemma idle_chan s r g (ms : list msg) : idle s r g ms = true <-> chan s r g ms = [].
Proof.
  unfold idle, chan. rewrite negb_true_iff. induction ms as [|m ms IH]; [split; reflexivity|]. cbn [existsb filter]. destruct (on s r g m); [split; discriminate|exact IH].
Qed.

(** ** What is between a sender that is past [d] rounds and a receiver that is past [g] *)
Definition count_ok (g d : nat) (sl : nat -> list O) (ch : list body) : Prop :=
  g <= d /\ ch = map (fun t => Count (length (sl t))) (seq g (d - g)).
Definition some {X} (l : list X) : bool := negb (length l =? 0).
Definition data_ok (g d : nat) (sl : nat -> list O) (ch : list body) : Prop :=
  (forall t, d <= t < g -> sl t = []) /\ ch = map Agents (filter some (map sl (seq g (d - g)))).
Lemma some_nil {X} (l : list X) : some l = true <-> l <> [].
Proof. destruct l; cbn; split; congruence. Qed.
Lemma count_send g d sl ch : count_ok g d sl ch -> count_ok g (S d) sl (ch ++ [Count (length (sl d))]).
Proof.
  intros [L ->]. split; [lia|]. replace (S d - g) with (S (d - g)) by lia. rewrite seq_S, map_app. cbn [map]. replace (g + (d - g)) with d by lia. reflexivity.
Qed.
Lemma count_recv g d sl ch : count_ok g d sl ch -> (ch = [] /\ g = d) \/ exists ch', ch = Count (length (sl g)) :: ch' /\ count_ok (S g) d sl ch'.
Proof.
  intros [L ->]. destruct (Nat.eq_dec g d) as [->|Ne]; [left; rewrite Nat.sub_diag; auto|right].
  replace (d - g) with (S (d - S g)) by lia. cbn [seq map]. eexists. split; [reflexivity|]. split; [lia|reflexivity].
Qed.
Lemma data_skip_got g d sl ch : sl g = [] -> data_ok g d sl ch -> data_ok (S g) d sl ch.
Proof.
  intros Hs [H ->]. split.
  - intros t Ht. destruct (Nat.eq_dec t g) as [->|]; [exact Hs|apply H; lia].
  - destruct (le_lt_dec d g); [replace (d - g) with 0 by lia; replace (d - S g) with 0 by lia; reflexivity|].
    replace (d - g) with (S (d - S g)) by lia. cbn [seq map filter]. rewrite Hs. reflexivity.
Qed.
Lemma data_skip_sent g d sl ch : sl d = [] -> data_ok g d sl ch -> data_ok g (S d) sl ch.
Proof.
  intros Hs [H ->]. split; [intros t Ht; apply H; lia|].
  destruct (le_lt_dec g d); [|replace (d - g) with 0 by lia; replace (S d - g) with 0 by lia; reflexivity].
  replace (S d - g) with (S (d - g)) by lia. rewrite seq_S, map_app, filter_app. cbn [map filter]. replace (g + (d - g)) with d by lia. rewrite Hs. cbn. rewrite app_nil_r. reflexivity.
Qed.
Lemma data_send g d sl ch : sl d <> [] -> data_ok g d sl ch -> data_ok g (S d) sl (ch ++ [Agents (sl d)]).
Proof.
  intros Hs [H ->]. assert (g <= d). { destruct (le_lt_dec g d); [assumption|]. exfalso. apply Hs, H. lia. }
  split; [intros t Ht; lia|]. replace (S d - g) with (S (d - g)) by lia. rewrite seq_S, map_app, filter_app, map_app. cbn [map filter]. replace (g + (d - g)) with d by lia.
  apply some_nil in Hs. rewrite Hs. reflexivity.
Qed.
Lemma data_recv g d sl ch : sl g <> [] -> data_ok g d sl ch ->
  (ch = [] /\ d <= g) \/ exists ch', ch = Agents (sl g) :: ch' /\ data_ok (S g) d sl ch'.
Proof.
  intros Hs [H ->]. destruct (le_lt_dec d g) as [L|L].
  - left. replace (d - g) with 0 by lia. auto.
  - right. replace (d - g) with (S (d - S g)) by lia. cbn [seq map filter]. apply some_nil in Hs. rewrite Hs. eexists. split; [reflexivity|].
    split; [intros t Ht; lia|reflexivity].
Qed.

(** ** The invariant *)
Definition at_head (q : nat) (todo : list nat) : bool := match todo with h :: _ => h =? q | [] => false end.
Definition is_some {X} (o : option X) : bool := match o with Some _ => true | None => false end.
(** How many counts a process has sent to, and got from, [q]; and of how many calls it has
    sent the agents, if any, to [q], and got them from [q]. *)
Definition csent (p : proc) (q : nat) : nat :=
  length (p_log p) + match p_phase p with Counting todo _ sent _ _ => if memb q todo then Nat.b2n (at_head q todo && is_some sent) else 1 | Moving _ _ _ _ => 1 end.
Definition cgot (p : proc) (q : nat) : nat :=
  length (p_log p) + match p_phase p with Counting todo _ _ got _ => if memb q todo then Nat.b2n (at_head q todo && got) else 1 | Moving _ _ _ _ => 1 end.
Definition dsent (p : proc) (q : nat) : nat :=
  length (p_log p) + match p_phase p with Counting _ _ _ _ _ => 0 | Moving _ _ sends _ => if memb q sends then 0 else 1 end.
Definition dgot (p : proc) (q : nat) : nat :=
  length (p_log p) + match p_phase p with Counting _ _ _ _ _ => 0 | Moving posts _ _ _ => if memb q posts then 0 else 1 end.

Definition phase_ok (r t : nat) (ph : phase) : Prop :=
  match ph with
  | Counting todo posted sent got counts =>
      (exists done, nbrs r = done ++ todo) /\ (posted = false -> sent = None /\ got = false) /\ (todo = [] -> posted = false) /\
      (t = calls -> todo = nbrs r /\ posted = false) /\
      (forall s, counts s = if memb s (nbrs r) then if memb s todo && negb (at_head s todo && got) then 0 else length (slot s r t) else 0)
  | Moving posts bufs sends open =>
      t < calls /\ NoDup posts /\ (forall s, In s posts -> In s (nbrs r) /\ slot s r t <> []) /\
      (forall s, bufs s = if memb s posts then repeat dummy (length (slot s r t)) else if memb s (nbrs r) then slot s r t else []) /\
      NoDup sends /\ (forall q, In q sends -> In q (nbrs r) /\ slot r q t <> []) /\ (forall q, In q open -> In q (nbrs r) /\ ~ In q sends)
  end.
Definition proc_ok (r : nat) (p : proc) : Prop :=
  length (p_log p) <= calls /\ p_log p = ideal (length (p_log p)) r /\ phase_ok r (length (p_log p)) (p_phase p).
(** The channels from [s] to [r]. *)
Definition pair_ok (s r : nat) (ps pr : proc) (ms : list msg) : Prop :=
  count_ok (cgot pr s) (csent ps r) (slot s r) (chan s r s ms) /\ data_ok (dgot pr s) (dsent ps r) (slot s r) (chan s r r ms).
Definition inv (σ : state) : Prop :=
  (forall r, r < n -> proc_ok r (procs σ r)) /\
  (forall s r, r < n -> In s (nbrs r) -> pair_ok s r (procs σ s) (procs σ r) (mail σ)).

Lemma nbr_lt r s : r < n -> In s (nbrs r) -> s < n.
Proof. intros Hr Hs. destruct (Net r Hr) as (_ & F & _). rewrite Forall_forall in F. exact (F s Hs). Qed.
Lemma nbr_sym r s : r < n -> In s (nbrs r) -> In r (nbrs s).
Proof. intros Hr. destruct (Net r Hr) as (_ & _ & _ & F). apply F. Qed.
Lemma nbr_ne r s : r < n -> In s (nbrs r) -> s <> r.
Proof. intros Hr Hs ->. destruct (Net r Hr) as (_ & _ & F & _). exact (F Hs). Qed.
Lemma sorted_NoDup l : StronglySorted lt l -> NoDup l.
Proof. induction 1 as [|a l S IH F]; constructor; [|exact IH]. intros H. rewrite Forall_forall in F. specialize (F a H). lia. Qed.
Lemma nbr_NoDup r : r < n -> NoDup (nbrs r).
Proof. intros Hr. apply sorted_NoDup. apply (Net r Hr). Qed.

(** One process changes, and the mail only on its channels. *)
Lemma inv_upd (σ : state) r p ms : inv σ -> r < n -> proc_ok r p ->
  (forall q, In q (nbrs r) -> pair_ok r q p (procs σ q) ms /\ pair_ok q r (procs σ q) p ms) ->
  (forall s q g, s <> r -> q <> r -> chan s q g ms = chan s q g (mail σ)) ->
  inv (State (upd r p (procs σ)) ms).
Proof.
  intros [I1 I2] Hr Hp Hq Hc. split; cbn [procs mail].
  - intros r' Hr'. destruct (Nat.eq_dec r' r) as [->|Ne]; [rewrite upd_same; exact Hp|rewrite upd_other by exact Ne; apply I1; exact Hr'].
  - intros s q Hqn Hs. pose proof (nbr_ne q s Hqn Hs) as Ne. destruct (Nat.eq_dec s r) as [->|Ns].
    + rewrite upd_same, upd_other by congruence. apply Hq. apply nbr_sym; assumption.
    + destruct (Nat.eq_dec q r) as [->|Nq].
      * rewrite upd_same, upd_other by exact Ns. apply Hq. exact Hs.
      * rewrite !upd_other by assumption. unfold pair_ok. rewrite !Hc by assumption. apply I2; assumption.
Qed.
(** The pairs stay as they are if the mail and the numbers do. *)
Lemma pairs_same (σ : state) r p ph : inv σ -> r < n -> procs σ r = p ->
  (forall q, In q (nbrs r) -> csent (Proc (p_log p) ph) q = csent p q /\ cgot (Proc (p_log p) ph) q = cgot p q /\
     dsent (Proc (p_log p) ph) q = dsent p q /\ dgot (Proc (p_log p) ph) q = dgot p q) ->
  forall q, In q (nbrs r) -> pair_ok r q (Proc (p_log p) ph) (procs σ q) (mail σ) /\ pair_ok q r (procs σ q) (Proc (p_log p) ph) (mail σ).
Proof.
  intros [_ I2] Hr <- H q Hq. destruct (H q Hq) as (E1 & E2 & E3 & E4). unfold pair_ok. rewrite E1, E2, E3, E4.
  split; [apply (I2 r q)|apply (I2 q r)]; try assumption; [apply (nbr_lt r); assumption|apply nbr_sym; assumption].
Qed.

Lemma filter_negb_NoDup {X} (f : X -> bool) l : NoDup l -> NoDup (filter f l).
Proof. apply NoDup_filter. Qed.

(** ** Steps *)
Lemma start_ok : inv (start nbrs).
Proof.
  split; cbn [start procs mail].
  - intros r Hr. split; [cbn; lia|]. split; [reflexivity|]. cbn [p_log p_phase enter phase_ok length].
    split; [exists []; reflexivity|]. split; [auto|]. split; [reflexivity|]. split; [auto|].
    intros s. destruct (memb s (nbrs r)); [|reflexivity]. rewrite andb_false_r. reflexivity.
  - intros s r Hr Hs. pose proof (nbr_sym r s Hr Hs) as Hr'. apply memb_In in Hs, Hr'. unfold pair_ok, csent, cgot, dsent, dgot, chan. cbn [p_log p_phase enter length filter map].
    rewrite Hs, Hr', !andb_false_r. cbn. split; (split; [|reflexivity]); [lia|intros; lia].
Qed.

(** [r] goes on. *)
Lemma run_ok (σ : state) r b : inv σ -> r < n -> match run_proc n nbrs payload dummy calls false r b σ with Blocked => True | Error => False | Next σ' => inv σ' end.
Proof.
  intros I Hr. pose proof I as [I1 I2]. pose proof (I1 r Hr) as (L & Lg & Ph). pose proof (nbr_NoDup r Hr) as ND.
  unfold run_proc. destruct (length (p_log (procs σ r)) =? calls) eqn:Ek; [exact Logic.I|]. apply Nat.eqb_neq in Ek. assert (Lt : length (p_log (procs σ r)) < calls) by lia.
  destruct (p_phase (procs σ r)) as [todo posted sent got counts|posts bufs sends open] eqn:Eph.
  - cbn [phase_ok] in Ph. destruct Ph as ((done & Ed) & Pp & Pt & _ & Pc). destruct todo as [|q todo].
    + (* the data phase begins *)
      rewrite app_nil_r in Ed. subst done.
      assert (HC : forall s, In s (nbrs r) -> counts s = length (slot s r (length (p_log (procs σ r))))).
      { intros s Hs. rewrite Pc. apply memb_In in Hs. rewrite Hs. reflexivity. }
      assert (HP : forall s, In s (filter (fun i => negb (counts i =? 0)) (seq 0 n)) <-> In s (nbrs r) /\ slot s r (length (p_log (procs σ r))) <> []).
      { intros s. rewrite filter_In, in_seq, negb_true_iff, Nat.eqb_neq. split.
        - intros [Hs Hc]. destruct (memb s (nbrs r)) eqn:Em; [|rewrite Pc, Em in Hc; congruence]. apply memb_In in Em. split; [exact Em|].
          rewrite HC in Hc by exact Em. intros E. rewrite E in Hc. apply Hc. reflexivity.
        - intros [Hs Hn]. split; [pose proof (nbr_lt r s Hr Hs); lia|]. rewrite HC by exact Hs. destruct (slot s r _); [congruence|discriminate]. }
      assert (HS : forall q, In q (filter (fun i => negb (length (payload r (p_log (procs σ r)) i) =? 0)) (nbrs r)) <-> In q (nbrs r) /\ slot r q (length (p_log (procs σ r))) <> []).
      { intros q. rewrite filter_In. unfold slot. rewrite <- Lg. change (negb (length ?x =? 0)) with (some x). rewrite some_nil. reflexivity. }
      apply inv_upd; [exact I|exact Hr| | |reflexivity].
      * split; [exact L|]. split; [exact Lg|]. cbn [p_log p_phase phase_ok]. split; [exact Lt|]. split; [apply NoDup_filter, seq_NoDup|].
        split; [intros s Hs; apply HP; exact Hs|]. split; [|split; [apply NoDup_filter; exact ND|split; [intros q Hq; apply HS; exact Hq|intros q []]]].
        intros s. destruct (memb s (nbrs r)) eqn:Em.
        -- apply memb_In in Em. rewrite (HC s Em). match goal with |- context [memb s (filter ?f ?l)] => destruct (memb s (filter f l)) eqn:E' end; [reflexivity|].
           apply memb_not in E'. destruct (slot s r _) eqn:Es; [reflexivity|]. exfalso. apply E', HP. split; [exact Em|congruence].
        -- match goal with |- context [memb s (filter ?f ?l)] => destruct (memb s (filter f l)) eqn:E' end; [|reflexivity].
           apply memb_In, HP in E'. apply memb_not in Em. destruct E'. contradiction.
      * intros q Hq. pose proof (I2 r q (nbr_lt r q Hr Hq) (nbr_sym r q Hr Hq)) as [A1 A2]. pose proof (I2 q r Hr Hq) as [B1 B2].
        unfold pair_ok, csent, cgot, dsent, dgot in *. rewrite Eph in *. cbn [p_log p_phase memb existsb] in *.
        split; (split; [assumption|]).
        -- match goal with |- context [memb q (filter ?f ?l)] => destruct (memb q (filter f l)) eqn:E' end; [exact A2|].
           rewrite Nat.add_0_r in A2. rewrite Nat.add_1_r. apply data_skip_sent; [|exact A2].
           apply memb_not in E'. destruct (slot r q _) eqn:Es; [reflexivity|]. exfalso. apply E', HS. split; [exact Hq|congruence].
        -- match goal with |- context [memb q (filter ?f ?l)] => destruct (memb q (filter f l)) eqn:E' end; [exact B2|].
           rewrite Nat.add_0_r in B2. rewrite Nat.add_1_r. apply data_skip_got; [|exact B2].
           apply memb_not in E'. destruct (slot q r _) eqn:Es; [reflexivity|]. exfalso. apply E', HP. split; [exact Hq|congruence].
    + assert (Hqr : In q (nbrs r)) by (rewrite Ed; apply in_or_app; right; left; reflexivity).
      assert (NDt : NoDup (q :: todo)). { rewrite Ed in ND. clear - ND. induction done as [|x done IH]; [exact ND|]. inversion_clear ND as [|? ? ? ND']. apply IH. exact ND'. }
      assert (Nq : memb q todo = false) by (apply memb_not; inversion NDt; assumption).
      destruct posted; [destruct sent as [e|]|].
      * (* both waited for *)
        destruct (got && _) eqn:Eg; [|exact Logic.I]. apply andb_prop in Eg. destruct Eg as [-> _].
        apply inv_upd; [exact I|exact Hr| | |reflexivity].
        -- split; [exact L|]. split; [exact Lg|]. cbn [p_log p_phase phase_ok]. split; [exists (done ++ [q]); rewrite <- app_assoc; exact Ed|].
           split; [auto|]. split; [auto|]. split; [intros; lia|]. intros s. rewrite Pc. destruct (memb s (nbrs r)); [|reflexivity].
           change (memb s (q :: todo)) with ((s =? q) || memb s todo). cbn [at_head]. rewrite andb_true_r, andb_false_r, andb_true_r.
           rewrite (Nat.eqb_sym q s). destruct (Nat.eqb_spec s q) as [->|Ns]; cbn [orb negb andb]; [rewrite Nq; reflexivity|rewrite andb_true_r; reflexivity].
        -- apply pairs_same; [exact I|exact Hr|reflexivity|]. intros s Hs. unfold csent, cgot, dsent, dgot. rewrite Eph. cbn [p_log p_phase].
           change (memb s (q :: todo)) with ((s =? q) || memb s todo). cbn [at_head is_some]. rewrite !andb_true_r, !andb_false_r, (Nat.eqb_sym q s).
           destruct (Nat.eqb_spec s q) as [->|Ns]; cbn [orb Nat.b2n]; [rewrite Nq|]; auto.
      * (* the count is sent *)
        cbn [andb].
        apply inv_upd; [exact I|exact Hr| | |].
        -- split; [exact L|]. split; [exact Lg|]. cbn [p_log p_phase phase_ok]. split; [exists done; exact Ed|]. split; [discriminate|]. split; [discriminate|]. split; [intros; lia|exact Pc].
        -- intros s Hs. pose proof (I2 r s (nbr_lt r s Hr Hs) (nbr_sym r s Hr Hs)) as [A1 A2]. pose proof (I2 s r Hr Hs) as [B1 B2]. pose proof (nbr_ne r s Hr Hs) as Nsr.
           unfold pair_ok, csent, cgot, dsent, dgot in *. rewrite Eph in *. cbn [p_log p_phase] in *. rewrite !chan_snoc. unfold on. cbn [m_from m_to m_tag m_body].
           rewrite !Nat.eqb_refl. rewrite (proj2 (Nat.eqb_neq r s)) by congruence. cbn [andb]. rewrite !andb_false_r, !app_nil_r.
           change (memb s (q :: todo)) with ((s =? q) || memb s todo) in *. cbn [at_head is_some] in *. rewrite ?(Nat.eqb_sym q s) in *.
           split; split; try assumption.
           destruct (Nat.eqb_spec s q) as [->|Ns]; cbn [orb andb Nat.b2n] in *; [|rewrite app_nil_r; exact A1].
           rewrite Nat.add_0_r in A1. rewrite Nat.add_1_r. replace (payload r (p_log (procs σ r)) q) with (slot r q (length (p_log (procs σ r)))) by (unfold slot; rewrite <- Lg; reflexivity). apply count_send. exact A1.
        -- intros s q' g Ns Nq'. rewrite chan_snoc. unfold on. cbn [m_from]. rewrite (proj2 (Nat.eqb_neq r s)) by congruence. apply app_nil_r.
      * (* the receive is posted *)
        destruct (Pp eq_refl) as [-> ->].
        apply inv_upd; [exact I|exact Hr| | |reflexivity].
        -- split; [exact L|]. split; [exact Lg|]. cbn [p_log p_phase phase_ok]. split; [exists done; exact Ed|]. split; [discriminate|]. split; [discriminate|]. split; [intros; lia|exact Pc].
        -- apply pairs_same; [exact I|exact Hr|reflexivity|]. intros s Hs. unfold csent, cgot, dsent, dgot. rewrite Eph. auto.
  - cbn [phase_ok] in Ph. destruct Ph as (_ & NDp & Hp & Hb & NDs & Hs & Ho). destruct sends as [|q sends].
    + destruct posts as [|s posts]; [|exact Logic.I]. destruct (forallb _ open); [|exact Logic.I].
      (* the call returns *)
      apply inv_upd; [exact I|exact Hr| | |reflexivity].
      * split; [cbn [p_log]; rewrite app_length; cbn [length]; lia|]. split.
        -- cbn [p_log]. rewrite app_length. cbn [length]. rewrite Nat.add_1_r. cbn [MpiSpec.ideal]. rewrite <- Lg. f_equal. f_equal. apply map_ext_in. intros s Hs'.
           rewrite Hb. cbn [memb existsb]. destruct (memb s (nbrs r)) eqn:Em.
           ++ apply memb_In in Em. destruct (in_dec Nat.eq_dec s (nbrs r)); [reflexivity|contradiction].
           ++ apply memb_not in Em. destruct (in_dec Nat.eq_dec s (nbrs r)); [contradiction|reflexivity].
        -- cbn [p_log p_phase enter phase_ok length]. split; [exists []; reflexivity|]. split; [auto|]. split; [reflexivity|]. split; [auto|].
           intros s. destruct (memb s (nbrs r)); [|reflexivity]. rewrite andb_false_r. reflexivity.
      * intros q Hq. pose proof (I2 r q (nbr_lt r q Hr Hq) (nbr_sym r q Hr Hq)) as [A1 A2]. pose proof (I2 q r Hr Hq) as [B1 B2].
        apply memb_In in Hq. unfold pair_ok, csent, cgot, dsent, dgot in *. rewrite Eph in *. cbn [p_log p_phase enter] in *. rewrite app_length. cbn [length]. rewrite Hq, !andb_false_r.
        cbn [memb existsb Nat.b2n] in *. rewrite !Nat.add_0_r. auto.
    + (* agents are sent *)
      destruct (Hs q (or_introl eq_refl)) as [Hqr Hne]. assert (Nq : memb q sends = false) by (apply memb_not; inversion NDs; assumption).
      apply inv_upd; [exact I|exact Hr| | |].
      * split; [exact L|]. split; [exact Lg|]. cbn [p_log p_phase phase_ok]. repeat (split; [assumption|]). split; [inversion NDs; assumption|]. split; [intros q' Hq'; apply Hs; right; exact Hq'|].
        intros q' Hq'. assert (H : q' = q \/ In q' open) by (destruct b; [right; exact Hq'|destruct Hq' as [<-|Hq']; auto]). destruct H as [->|H].
        -- split; [exact Hqr|apply memb_not; exact Nq].
        -- destruct (Ho q' H) as [H1 H2]. split; [exact H1|]. intros H3. apply H2. right. exact H3.
      * intros s Hs'. pose proof (I2 r s (nbr_lt r s Hr Hs') (nbr_sym r s Hr Hs')) as [A1 A2]. pose proof (I2 s r Hr Hs') as [B1 B2]. pose proof (nbr_ne r s Hr Hs') as Nsr.
        unfold pair_ok, csent, cgot, dsent, dgot in *. rewrite Eph in *. cbn [p_log p_phase] in *. rewrite !chan_snoc. unfold on. cbn [m_from m_to m_tag m_body].
        rewrite !Nat.eqb_refl. rewrite (proj2 (Nat.eqb_neq r s)) by congruence. cbn [andb]. rewrite !app_nil_r.
        change (memb s (q :: sends)) with ((s =? q) || memb s sends) in *. rewrite ?(Nat.eqb_sym q s).
        destruct (Nat.eqb_spec s q) as [->|Ns]; cbn [orb andb] in *.
        -- rewrite Nq. rewrite (proj2 (Nat.eqb_neq q r)) by congruence. cbn [andb]. rewrite app_nil_r. split; split; try assumption.
           rewrite Nat.add_0_r in A2. rewrite Nat.add_1_r. replace (payload r (p_log (procs σ r)) q) with (slot r q (length (p_log (procs σ r)))) by (unfold slot; rewrite <- Lg; reflexivity). apply data_send; [exact Hne|exact A2].
        -- rewrite !app_nil_r. auto.
      * intros s q' g Ns Nq'. rewrite chan_snoc. unfold on. cbn [m_from]. rewrite (proj2 (Nat.eqb_neq r s)) by congruence. apply app_nil_r.
Qed.

(** A message arrives at [r]. *)
Lemma memb_remove i s l : memb i (filter (fun j => negb (j =? s)) l) = memb i l && negb (i =? s).
Proof.
  induction l as [|j l IH]; [reflexivity|]. cbn [filter]. change (memb i (j :: l)) with ((i =? j) || memb i l). destruct (Nat.eqb_spec j s) as [->|Ne]; cbn [negb].
  - rewrite IH. destruct (Nat.eqb_spec i s); cbn [orb negb]; [rewrite !andb_false_r|]; reflexivity.
  - change (memb i (j :: filter (fun j => negb (j =? s)) l)) with ((i =? j) || memb i (filter (fun j => negb (j =? s)) l)). rewrite IH.
    destruct (Nat.eqb_spec i j) as [->|]; [|reflexivity]. apply Nat.eqb_neq in Ne. rewrite Ne. reflexivity.
Qed.
Lemma deliver_ok (σ : state) s r : inv σ -> s < n -> r < n -> match deliver s r σ with Blocked => True | Error => False | Next σ' => inv σ' end.
Proof.
  intros I Hsn Hr. pose proof I as [I1 I2]. pose proof (I1 r Hr) as (L & Lg & Ph). pose proof (nbr_NoDup r Hr) as ND.
  unfold deliver. destruct (p_phase (procs σ r)) as [todo posted sent got counts|posts bufs sends open] eqn:Eph.
  - cbn [phase_ok] in Ph. destruct Ph as ((done & Ed) & Pp & Pt & Pk & Pc). destruct todo as [|q todo]; [exact Logic.I|]. destruct posted; [|exact Logic.I]. destruct got; [exact Logic.I|].
    destruct (Nat.eqb_spec q s) as [->|]; [|exact Logic.I].
    assert (Hs : In s (nbrs r)) by (rewrite Ed; apply in_or_app; right; left; reflexivity). pose proof (nbr_ne r s Hr Hs) as Nsr.
    pose proof (I2 s r Hr Hs) as [B1 B2]. unfold cgot in B1. rewrite Eph in B1. cbn [memb existsb at_head] in B1. rewrite Nat.eqb_refl in B1. cbn [orb andb Nat.b2n] in B1. rewrite Nat.add_0_r in B1.
    destruct (take s r s (mail σ)) as [[bd ms]|] eqn:Et; [|exact Logic.I]. destruct (take_some _ _ _ _ _ _ Et) as [T1 T2].
    destruct (count_recv _ _ _ _ B1) as [[E _]|(ch & E & B1')]; [congruence|]. rewrite T1 in E. injection E as -> Ech.
    apply inv_upd; [exact I|exact Hr| | |].
    + split; [exact L|]. split; [exact Lg|]. cbn [p_log p_phase phase_ok]. split; [exists done; exact Ed|]. split; [discriminate|]. split; [discriminate|].
      split; [intros E; apply Pk in E; destruct E as [_ E]; discriminate E|]. intros s'. unfold upd. destruct (Nat.eqb_spec s' s) as [->|Ns].
      * apply memb_In in Hs. rewrite Hs. cbn [at_head]. rewrite Nat.eqb_refl, andb_false_r. reflexivity.
      * rewrite Pc. cbn [at_head]. rewrite (proj2 (Nat.eqb_neq s s')) by congruence. reflexivity.
    + intros q Hq. pose proof (I2 r q (nbr_lt r q Hr Hq) (nbr_sym r q Hr Hq)) as [A1 A2]. pose proof (I2 q r Hr Hq) as [C1 C2].
      unfold pair_ok, csent, dsent, dgot in *. rewrite Eph in A1, A2, C2. cbn [p_log p_phase] in *. rewrite !(T2 r q) by congruence.
      rewrite (T2 q r r) by congruence. split; split; try assumption.
      destruct (Nat.eq_dec q s) as [->|Nq].
      * rewrite <- Ech in B1'. unfold cgot. cbn [p_log p_phase memb existsb at_head]. rewrite Nat.eqb_refl. cbn [orb andb Nat.b2n]. rewrite Nat.add_1_r. exact B1'.
      * rewrite (T2 q r q) by congruence. unfold cgot in *. rewrite Eph in C1. cbn [p_log p_phase memb existsb at_head] in *. rewrite (proj2 (Nat.eqb_neq s q)) in * by congruence. exact C1.
    + intros s' q g Ns Nq. apply T2. congruence.
  - cbn [phase_ok] in Ph. destruct Ph as (Lt & NDp & Hp & Hb & NDs & Hs & Ho). destruct (memb s posts) eqn:Em; [|exact Logic.I].
    pose proof Em as Em'. apply memb_In in Em'. destruct (Hp s Em') as [Hsr Hne]. pose proof (nbr_ne r s Hr Hsr) as Nsr.
    pose proof (I2 s r Hr Hsr) as [B1 B2]. unfold dgot in B2. rewrite Eph, Em, Nat.add_0_r in B2.
    destruct (take s r r (mail σ)) as [[bd ms]|] eqn:Et; [|exact Logic.I]. destruct (take_some _ _ _ _ _ _ Et) as [T1 T2].
    destruct (data_recv _ _ _ _ Hne B2) as [[E _]|(ch & E & B2')]; [congruence|]. rewrite T1 in E. injection E as -> Ech.
    rewrite (Hb s), Em, repeat_length, Nat.leb_refl.
    apply inv_upd; [exact I|exact Hr| | |].
    + split; [exact L|]. split; [exact Lg|]. cbn [p_log p_phase phase_ok]. split; [exact Lt|]. split; [apply NoDup_filter; exact NDp|].
      split; [intros s' Hs'; apply filter_In in Hs'; apply Hp; apply Hs'|]. split; [|repeat (split; [assumption|]); assumption].
      intros s'. rewrite memb_remove. unfold upd. destruct (Nat.eqb_spec s' s) as [->|Ns]; cbn [negb].
      * rewrite andb_false_r. apply memb_In in Hsr. rewrite Hsr. rewrite skipn_all2 by (rewrite repeat_length; lia). apply app_nil_r.
      * rewrite andb_true_r. apply Hb.
    + intros q Hq. pose proof (I2 r q (nbr_lt r q Hr Hq) (nbr_sym r q Hr Hq)) as [A1 A2]. pose proof (I2 q r Hr Hq) as [C1 C2].
      unfold pair_ok, csent, cgot, dsent in *. rewrite Eph in A1, A2, C1. cbn [p_log p_phase] in *. rewrite !(T2 r q) by congruence.
      rewrite (T2 q r q) by (intros E; injection E; intros; subst; congruence). split; split; try assumption.
      unfold dgot in *. rewrite Eph in C2. cbn [p_log p_phase] in *. rewrite memb_remove. destruct (Nat.eqb_spec q s) as [->|Nq]; cbn [negb].
      * rewrite andb_false_r, Nat.add_1_r. rewrite <- Ech in B2'. exact B2'.
      * rewrite andb_true_r. rewrite (T2 q r r) by congruence. exact C2.
    + intros s' q g Ns Nq. apply T2. congruence.
Qed.

Lemma step_ok c σ : inv σ -> match step c σ with Blocked => True | Error => False | Next σ' => inv σ' end.
Proof.
  intros I. destruct c as [r b|s r]; cbn [MpiModel.step].
  - destruct (Nat.ltb_spec r n); [apply run_ok; assumption|exact Logic.I].
  - destruct (Nat.ltb_spec s n); [|exact Logic.I]. destruct (Nat.ltb_spec r n); [apply deliver_ok; assumption|exact Logic.I].
Qed.
Lemma run_inv cs σ : inv σ -> exists σ', run n nbrs payload dummy calls false σ cs = Some σ' /\ inv σ'.
Proof.
  revert σ. induction cs as [|c cs IH]; intros σ I; [exists σ; auto|]. cbn [run]. pose proof (step_ok c σ I) as H.
  destruct (step c σ) as [| |σ']; [apply IH; exact I|destruct H|apply IH; exact H].
Qed.

(** ** Progress *)
Definition stuck (σ : state) : Prop := forall c, step c σ = Blocked.
Lemma min_round (σ : state) : 0 < n -> exists t, (exists r, r < n /\ length (p_log (procs σ r)) = t) /\ forall r, r < n -> t <= length (p_log (procs σ r)).
Proof.
  intros Hn. assert (H : forall m, 0 < m -> m <= n -> exists t, (exists r, r < m /\ length (p_log (procs σ r)) = t) /\ forall r, r < m -> t <= length (p_log (procs σ r))).
  { induction m as [|m IH]; intros Hm Hmn; [lia|]. destruct m as [|m].
    - exists (length (p_log (procs σ 0))). split; [exists 0; auto|]. intros r Hr. replace r with 0 by lia. lia.
    - destruct IH as (t & (r & Hr & Er) & Ht); [lia|lia|]. destruct (le_lt_dec t (length (p_log (procs σ (S m))))) as [Le|Lt'].
      + exists t. split; [exists r; auto|]. intros r' Hr'. destruct (Nat.eq_dec r' (S m)) as [->|]; [exact Le|apply Ht; lia].
      + exists (length (p_log (procs σ (S m)))). split; [exists (S m); auto|]. intros r' Hr'. destruct (Nat.eq_dec r' (S m)) as [->|]; [lia|]. specialize (Ht r'). lia. }
  apply H; lia.
Qed.
Lemma stuck_run (σ : state) r b : stuck σ -> r < n -> run_proc n nbrs payload dummy calls false r b σ = Blocked.
Proof. intros S Hr. specialize (S (Run r b)). cbn [MpiModel.step] in S. apply Nat.ltb_lt in Hr. rewrite Hr in S. exact S. Qed.
Lemma stuck_deliver (σ : state) s r : stuck σ -> s < n -> r < n -> deliver s r σ = Blocked.
Proof. intros S Hs Hr. specialize (S (Deliver s r)). cbn [MpiModel.step] in S. apply Nat.ltb_lt in Hr, Hs. rewrite Hr, Hs in S. exact S. Qed.

(** A process stuck in its counting loop is at a neighbour, has posted and sent, and misses
    the count or the acknowledgement. *)
Lemma stuck_counting (σ : state) r todo posted sent got counts : stuck σ -> r < n -> length (p_log (procs σ r)) < calls ->
  p_phase (procs σ r) = Counting todo posted sent got counts ->
  exists q rest e, todo = q :: rest /\ posted = true /\ sent = Some e /\ (got = false \/ chan r q r (mail σ) <> []).
Proof.
  intros S Hr Ht Eph. pose proof (stuck_run σ r false S Hr) as H. unfold run_proc in H. rewrite Eph in H. rewrite (proj2 (Nat.eqb_neq _ _)) in H by lia.
  destruct todo as [|q rest]; [discriminate|]. destruct posted; [|discriminate]. destruct sent as [e|]; [|discriminate]. exists q, rest, e.
  repeat (split; [reflexivity|]). destruct got; [right|left; reflexivity]. cbn [andb] in H. destruct (e || _) eqn:E; [discriminate|]. apply orb_false_iff in E. destruct E as [_ E].
  intros Ec. apply idle_chan in Ec. congruence.
Qed.
Lemma stuck_moving (σ : state) r posts bufs sends open : stuck σ -> r < n -> length (p_log (procs σ r)) < calls ->
  p_phase (procs σ r) = Moving posts bufs sends open ->
  sends = [] /\ (posts <> [] \/ exists q, In q open /\ chan r q q (mail σ) <> []).
Proof.
  intros S Hr Ht Eph. pose proof (stuck_run σ r false S Hr) as H. unfold run_proc in H. rewrite Eph in H. rewrite (proj2 (Nat.eqb_neq _ _)) in H by lia.
  destruct sends as [|q sends]; [|discriminate]. split; [reflexivity|]. destruct posts as [|s posts]; [right|left; discriminate].
  destruct (forallb _ open) eqn:E; [discriminate|]. clear - E. induction open as [|q open IH]; [discriminate|]. cbn [forallb] in E. apply andb_false_iff in E. destruct E as [E|E].
  - exists q. split; [left; reflexivity|]. intros Ec. apply idle_chan in Ec. congruence.
  - destruct (IH E) as (q' & Hq' & Hc). exists q'. split; [right; exact Hq'|exact Hc].
Qed.
Lemma b2n_le b : Nat.b2n b <= 1. Proof. destruct b; cbn; lia. Qed.

(** In the earliest call, a process stuck in the counting loop waits for one that is stuck
    there at a smaller neighbour than it. *)
Lemma counting_waits (σ : state) t x todo posted sent got counts : inv σ -> stuck σ -> t < calls -> (forall r, r < n -> t <= length (p_log (procs σ r))) ->
  x < n -> length (p_log (procs σ x)) = t -> p_phase (procs σ x) = Counting todo posted sent got counts ->
  exists q rest, todo = q :: rest /\ q < n /\ length (p_log (procs σ q)) = t /\
    exists y rest' posted' sent' got' counts', p_phase (procs σ q) = Counting (y :: rest') posted' sent' got' counts' /\ y < x.
Proof.
  intros I S Ht Hmin Hx Hl Eph. destruct (stuck_counting σ x _ _ _ _ _ S Hx ltac:(lia) Eph) as (q & rest & e & -> & -> & -> & Hw).
  pose proof I as [I1 I2]. pose proof (I1 x Hx) as (_ & _ & Ph). rewrite Eph in Ph. cbn [phase_ok] in Ph. destruct Ph as ((done & Ed) & _).
  assert (Hq : In q (nbrs x)) by (rewrite Ed; apply in_or_app; right; left; reflexivity).
  pose proof (nbr_lt x q Hx Hq) as Hqn. pose proof (nbr_sym x q Hx Hq) as Hxq. specialize (Hmin q Hqn).
  pose proof (I2 q x Hx Hq) as [B1 _]. pose proof (I2 x q Hqn Hxq) as [A1 _].
  exists q, rest. split; [reflexivity|]. split; [exact Hqn|].
  (* what q lacks *)
  assert (W : (length (p_log (procs σ q)) = t /\ exists todo' posted' sent' got' counts', p_phase (procs σ q) = Counting todo' posted' sent' got' counts' /\ In x todo' /\
               (at_head x todo' = false \/ sent' = None \/ (got' = false /\ chan x q x (mail σ) <> [])))).
  { destruct Hw as [->|Hc].
    - pose proof (stuck_deliver σ q x S Hqn Hx) as D. unfold deliver in D. rewrite Eph, Nat.eqb_refl in D.
      assert (Ec : chan q x q (mail σ) = []). { apply take_none. destruct (take q x q (mail σ)) as [[[c|l] ms]|]; [discriminate|discriminate|reflexivity]. }
      rewrite Ec in B1. destruct (count_recv _ _ _ _ B1) as [[_ E]|(ch & E & _)]; [|discriminate]. unfold cgot, csent in E. rewrite Eph in E. cbn [memb existsb at_head] in E. rewrite Nat.eqb_refl in E. cbn [orb andb Nat.b2n] in E.
      destruct (p_phase (procs σ q)) as [todo' posted' sent' got' counts'|] eqn:Eq; [|lia]. destruct (memb x todo') eqn:Em; [|lia].
      split; [lia|]. exists todo', posted', sent', got', counts'. split; [reflexivity|]. split; [apply memb_In; exact Em|].
      destruct (at_head x todo'); [|auto]. destruct sent'; [|auto]. cbn [andb is_some Nat.b2n] in E. lia.
    - destruct (count_recv _ _ _ _ A1) as [[E _]|(ch & E & [A1' _])]; [congruence|]. unfold csent in A1'. rewrite Eph in A1'. cbn [memb existsb at_head] in A1'. rewrite Nat.eqb_refl in A1'. cbn [orb andb is_some Nat.b2n] in A1'.
      unfold cgot in A1'. destruct (p_phase (procs σ q)) as [todo' posted' sent' got' counts'|] eqn:Eq; [|lia]. destruct (memb x todo') eqn:Em; [|lia].
      split; [lia|]. exists todo', posted', sent', got', counts'. split; [reflexivity|]. split; [apply memb_In; exact Em|].
      destruct (at_head x todo'); [|auto]. destruct got'; [cbn [andb Nat.b2n] in A1'; lia|auto]. }
  destruct W as [El (todo' & posted' & sent' & got' & counts' & Eq & Hin & Hlack)]. split; [exact El|].
  destruct (stuck_counting σ q _ _ _ _ _ S Hqn ltac:(lia) Eq) as (y & rest' & e' & -> & -> & -> & _).
  exists y, rest'. do 4 eexists. split; [exact Eq|].
  assert (y <> x).
  { intros ->. cbn [at_head] in Hlack. rewrite Nat.eqb_refl in Hlack. destruct Hlack as [H|[H|[H Hc]]]; [discriminate|discriminate|]. subst got'.
    pose proof (stuck_deliver σ x q S Hx Hqn) as D. unfold deliver in D. rewrite Eq, Nat.eqb_refl in D. apply Hc, take_none. destruct (take x q x (mail σ)) as [[[c|l] ms]|]; [discriminate|discriminate|reflexivity]. }
  destruct Hin as [E|Hin]; [congruence|]. destruct (Net q Hqn) as (So & _). pose proof (I1 q Hqn) as (_ & _ & Ph). rewrite Eq in Ph. cbn [phase_ok] in Ph. destruct Ph as ((done' & Ed') & _).
  rewrite Ed' in So. clear - So Hin. induction done' as [|z done' IH]; cbn [app] in So; [|inversion_clear So; auto].
  inversion_clear So as [|? ? _ F]. rewrite Forall_forall in F. apply F. exact Hin.
Qed.
Lemma no_counting (σ : state) t x : inv σ -> stuck σ -> t < calls -> (forall r, r < n -> t <= length (p_log (procs σ r))) ->
  x < n -> length (p_log (procs σ x)) = t -> forall todo posted sent got counts, p_phase (procs σ x) <> Counting todo posted sent got counts.
Proof.
  intros I S Ht Hmin. induction x as [x IH] using (well_founded_induction lt_wf). intros Hx Hl todo posted sent got counts Eph.
  destruct (counting_waits σ t x _ _ _ _ _ I S Ht Hmin Hx Hl Eph) as (q & rest & -> & Hq & Hlq & y & rest' & p' & s' & g' & c' & Eq & Hyx).
  destruct (counting_waits σ t q _ _ _ _ _ I S Ht Hmin Hq Hlq Eq) as (y' & r' & E & Hy & Hly & z & r'' & p'' & s'' & g'' & c'' & Ey & _). injection E as <- <-.
  exact (IH y Hyx Hy Hly _ _ _ _ _ Ey).
Qed.

(** Nothing can move only if all processes have made all their calls. *)
Lemma stuck_done (σ : state) : inv σ -> stuck σ -> forall r, r < n -> length (p_log (procs σ r)) = calls.
Proof.
  intros I S r0 Hr0. destruct (min_round σ) as (t & (x & Hx & Ex) & Hmin); [lia|]. pose proof I as [I1 I2].
  destruct (Nat.eq_dec t calls) as [->|Ne]. { pose proof (I1 r0 Hr0) as (L & _). specialize (Hmin r0 Hr0). lia. }
  exfalso. pose proof (I1 x Hx) as (Lx & _). assert (Ht : t < calls) by lia.
  assert (NC : forall x, x < n -> length (p_log (procs σ x)) = t -> exists posts bufs open, p_phase (procs σ x) = Moving posts bufs [] open /\ (posts <> [] \/ exists q, In q open /\ chan x q q (mail σ) <> [])).
  { intros y Hy Ey. destruct (p_phase (procs σ y)) as [todo posted sent got counts|posts bufs sends open] eqn:Eph.
    - exfalso. exact (no_counting σ t y I S Ht Hmin Hy Ey _ _ _ _ _ Eph).
    - destruct (stuck_moving σ y _ _ _ _ S Hy ltac:(lia) Eph) as [-> H]. eauto. }
  assert (NP : forall x, x < n -> length (p_log (procs σ x)) = t -> exists bufs open, p_phase (procs σ x) = Moving [] bufs [] open /\ exists q, In q open /\ chan x q q (mail σ) <> []).
  { intros y Hy Ey. destruct (NC y Hy Ey) as (posts & bufs & open & Eph & H). destruct posts as [|s posts]; [destruct H as [H|H]; [congruence|eauto]|exfalso].
    pose proof (I1 y Hy) as (_ & _ & Ph). rewrite Eph in Ph. cbn [phase_ok] in Ph. destruct Ph as (_ & _ & Hp & _). destruct (Hp s (or_introl eq_refl)) as [Hs Hne]. rewrite Ey in Hne.
    pose proof (nbr_lt y s Hy Hs) as Hsn. pose proof (stuck_deliver σ s y S Hsn Hy) as D. unfold deliver in D. rewrite Eph in D. cbn [memb existsb] in D. rewrite Nat.eqb_refl in D. cbn [orb] in D.
    assert (Ec : chan s y y (mail σ) = []). { apply take_none. destruct (take s y y (mail σ)) as [[[c|l] ms]|]; [discriminate|destruct (_ <=? _); discriminate|reflexivity]. }
    pose proof (I2 s y Hy Hs) as [_ B2]. rewrite Ec in B2. unfold dgot in B2. rewrite Eph in B2. cbn [memb existsb] in B2. rewrite Nat.eqb_refl in B2. cbn [orb] in B2. rewrite Nat.add_0_r, Ey in B2.
    destruct (data_recv _ _ _ _ Hne B2) as [[_ E]|(ch & E & _)]; [|discriminate]. unfold dsent in E. pose proof (Hmin s Hsn). destruct (Nat.eq_dec (length (p_log (procs σ s))) t) as [El|]; [|lia].
    destruct (NC s Hsn El) as (? & ? & ? & Es & _). rewrite Es in E. cbn in E. lia. }
  destruct (NP x Hx Ex) as (bufs & open & Eph & q & Hq & Hc).
  pose proof (I1 x Hx) as (_ & _ & Ph). rewrite Eph in Ph. cbn [phase_ok] in Ph. destruct Ph as (_ & _ & _ & _ & _ & _ & Ho). destruct (Ho q Hq) as [Hqx _].
  pose proof (nbr_lt x q Hx Hqx) as Hqn. pose proof (I2 x q Hqn (nbr_sym x q Hx Hqx)) as [_ [_ A2]]. unfold dsent in A2. rewrite Eph in A2. cbn [memb existsb] in A2. rewrite Ex in A2.
  assert (G : dgot (procs σ q) x <= t). { destruct (le_lt_dec (dgot (procs σ q) x) t); [assumption|]. exfalso. apply Hc. rewrite A2. replace (t + 1 - dgot (procs σ q) x) with 0 by lia. reflexivity. }
  unfold dgot in G. pose proof (Hmin q Hqn). assert (El : length (p_log (procs σ q)) = t) by lia. destruct (NP q Hqn El) as (? & ? & Eq & _). rewrite Eq in G. cbn in G. lia.
Qed.

(** A state is stuck or some choice is enabled. *)
Definition choices : list choice := map (fun r => Run r false) (seq 0 n) ++ flat_map (fun s => map (Deliver s) (seq 0 n)) (seq 0 n).
Definition blocked (c : choice) (σ : state) : bool := match step c σ with Blocked => true | _ => false end.
Lemma blocked_buffer r b b' σ : step (Run r b) σ = Blocked -> step (Run r b') σ = Blocked.
Proof.
  cbn [MpiModel.step]. destruct (r <? n); [|auto]. unfold run_proc. destruct (_ =? calls); [auto|]. destruct (p_phase (procs σ r)) as [[|q todo] [] [e|] got counts|[|s posts] bufs [|q sends] open]; try discriminate; auto.
Qed.
Lemma stuck_or (σ : state) : stuck σ \/ exists c, step c σ <> Blocked.
Proof.
  destruct (forallb (fun c => blocked c σ) choices) eqn:E.
  - left. rewrite forallb_forall in E. intros c. destruct (blocked c σ) eqn:Eb; [unfold blocked in Eb; destruct (step c σ); congruence|].
    destruct c as [r b|s r].
    + apply (blocked_buffer r false b). cbn [MpiModel.step]. destruct (Nat.ltb_spec r n) as [H|]; [|reflexivity].
      assert (Hc : In (Run r false) choices) by (apply in_or_app; left; apply in_map_iff; exists r; split; [reflexivity|apply in_seq; lia]).
      specialize (E _ Hc). unfold blocked in E. cbn [MpiModel.step] in E. apply Nat.ltb_lt in H. rewrite H in E. destruct (run_proc _ _ _ _ _ _ _ _ _); congruence.
    + cbn [MpiModel.step]. destruct (Nat.ltb_spec s n) as [H|]; [|reflexivity]. destruct (Nat.ltb_spec r n) as [H'|]; [|reflexivity].
      assert (Hc : In (Deliver s r) choices) by (apply in_or_app; right; apply in_flat_map; exists s; split; [apply in_seq; lia|]; apply in_map, in_seq; lia).
      specialize (E _ Hc). congruence.
  - right. assert (H : exists c, blocked c σ = false). { clear - E. induction choices as [|c cs IH]; [discriminate|]. cbn [forallb] in E. apply andb_false_iff in E. destruct E as [E|E]; eauto. }
    destruct H as [c Hc]. exists c. intros Es. unfold blocked in Hc. rewrite Es in Hc. discriminate.
Qed.
Lemma progress (σ : state) : inv σ -> (forall r, r < n -> length (p_log (procs σ r)) = calls) \/ exists c σ', step c σ = Next σ'.
Proof.
  intros I. destruct (stuck_or σ) as [S|[c Hc]]; [left; apply stuck_done; assumption|right]. exists c. pose proof (step_ok c σ I) as H.
  destruct (step c σ) as [| |σ'] eqn:E; [congruence|destruct H|eauto].
Qed.

(** ** Termination: every choice that does something makes the work left smaller *)
Definition per_call : nat := 6 * n + 3.
Definition left_in (ph : phase (O := O)) : nat :=
  match ph with
  | Counting todo posted sent got _ => 4 * length todo + 2 * n + 2 - (Nat.b2n posted + Nat.b2n (is_some sent) + Nat.b2n got)
  | Moving posts _ sends _ => length posts + length sends + 1
  end.
Definition left_of (p : proc) : nat := (calls - length (p_log p)) * per_call + left_in (p_phase p).
Definition work (σ : state) : nat := list_sum (map (fun r => left_of (procs σ r)) (seq 0 n)).
Lemma sum_upd (f : nat -> nat) (σ : state) (r : nat) p ms : r < n -> left_of p < left_of (procs σ r) -> work (State (upd r p (procs σ)) ms) < work σ.
Proof.
  intros Hr Hlt. unfold work. cbn [procs]. assert (H : forall l, NoDup l ->
    list_sum (map (fun i => left_of (upd r p (procs σ) i)) l) + (if memb r l then left_of (procs σ r) else 0) = list_sum (map (fun i => left_of (procs σ i)) l) + (if memb r l then left_of p else 0)).
  { induction 1 as [|i l Hi N IH]; [reflexivity|]. change (memb r (i :: l)) with ((r =? i) || memb r l). cbn [map list_sum fold_right] in *. destruct (Nat.eqb_spec r i) as [<-|Ne]; cbn [orb].
    - apply memb_not in Hi. rewrite Hi in IH. rewrite upd_same. unfold list_sum in *. cbn [fold_right]. lia.
    - rewrite upd_other by congruence. unfold list_sum in *. cbn [fold_right]. lia. }
  specialize (H (seq 0 n) (seq_NoDup n 0)). assert (Hm : memb r (seq 0 n) = true) by (apply memb_In, in_seq; lia). rewrite Hm in H. unfold list_sum in *. lia.
Qed.
Lemma nbr_length r : r < n -> length (nbrs r) <= n.
Proof.
  intros Hr. rewrite <- (seq_length n 0) at 1. apply NoDup_incl_length; [apply nbr_NoDup; exact Hr|]. intros s Hs. apply in_seq. pose proof (nbr_lt r s Hr Hs). lia.
Qed.
Lemma filter_le {X} (f : X -> bool) l : length (filter f l) <= length l.
Proof. induction l as [|x l IH]; [cbn; lia|]. cbn [filter]. destruct (f x); cbn [length]; lia. Qed.
Lemma filter_lt_memb s l : memb s l = true -> length (filter (fun i => negb (i =? s)) l) < length l.
Proof.
  induction l as [|x l IH]; [discriminate|]. change (memb s (x :: l)) with ((s =? x) || memb s l). cbn [filter]. rewrite (Nat.eqb_sym s x). destruct (Nat.eqb_spec x s) as [->|]; cbn [orb negb length].
  - intros _. pose proof (filter_le (fun i => negb (i =? s)) l). lia.
  - intros H. specialize (IH H). lia.
Qed.
Lemma step_work c (σ σ' : state) : inv σ -> step c σ = Next σ' -> work σ' < work σ.
Proof.
  intros I. pose proof I as [I1 _]. destruct c as [r b|s r]; cbn [MpiModel.step].
  - destruct (Nat.ltb_spec r n) as [Hr|]; [|discriminate]. pose proof (I1 r Hr) as (L & _ & Ph). pose proof (nbr_length r Hr) as Ln.
    unfold run_proc. destruct (Nat.eqb_spec (length (p_log (procs σ r))) calls) as [|Ek]; [discriminate|].
    destruct (p_phase (procs σ r)) as [todo posted sent got counts|posts bufs sends open] eqn:Eph; cbn [phase_ok] in Ph.
    + destruct Ph as ((done & Ed) & Pp & Pt & _). destruct todo as [|q todo]; [|destruct posted; [destruct sent as [e|]|]].
      * intros H. injection H as <-. apply (sum_upd (fun x => x)); [exact Hr|]. unfold left_of. rewrite Eph. cbn [p_log p_phase left_in length]. pose proof (filter_le (fun i => negb (counts i =? 0)) (seq 0 n)) as F1. rewrite seq_length in F1.
        match goal with |- context [length (filter ?f (nbrs r))] => pose proof (filter_le f (nbrs r)) as F2 end.
        rewrite (Pt eq_refl) in *. destruct (Pp eq_refl) as [-> ->]. cbn [is_some Nat.b2n]. lia.
      * destruct (got && _) eqn:Eg; [|discriminate]. apply andb_prop in Eg. destruct Eg as [-> _]. intros H. injection H as <-. apply (sum_upd (fun x => x)); [exact Hr|]. unfold left_of. rewrite Eph. cbn [p_log p_phase left_in length is_some Nat.b2n]. lia.
      * cbn [andb]. intros H. injection H as <-. apply (sum_upd (fun x => x)); [exact Hr|]. unfold left_of. rewrite Eph. cbn [p_log p_phase left_in length is_some Nat.b2n]. destruct got; cbn [Nat.b2n]; lia.
      * intros H. injection H as <-. apply (sum_upd (fun x => x)); [exact Hr|]. unfold left_of. rewrite Eph. cbn [p_log p_phase left_in length is_some Nat.b2n]. destruct (Pp eq_refl) as [-> ->]. cbn [is_some Nat.b2n]. lia.
    + destruct sends as [|q sends].
      * destruct posts as [|s posts]; [|discriminate]. destruct (forallb _ open); [|discriminate]. intros H. injection H as <-. apply (sum_upd (fun x => x)); [exact Hr|].
        unfold left_of. rewrite Eph. cbn [p_log p_phase enter left_in length is_some Nat.b2n]. rewrite app_length. cbn [length]. remember (calls - (length (p_log (procs σ r)) + 1)) as k.
        replace (calls - length (p_log (procs σ r))) with (S k) by lia. unfold per_call. lia.
      * intros H. injection H as <-. apply (sum_upd (fun x => x)); [exact Hr|]. unfold left_of. rewrite Eph. cbn [p_log p_phase left_in length]. lia.
  - destruct (Nat.ltb_spec s n) as [Hs|]; [|discriminate]. destruct (Nat.ltb_spec r n) as [Hr|]; [|discriminate]. cbn [andb]. unfold deliver.
    destruct (p_phase (procs σ r)) as [todo posted sent got counts|posts bufs sends open] eqn:Eph.
    + destruct todo as [|q todo]; [discriminate|]. destruct posted; [|discriminate]. destruct got; [discriminate|]. destruct (q =? s); [|discriminate].
      destruct (take s r s (mail σ)) as [[[c|l] ms]|]; try discriminate. intros H. injection H as <-. apply (sum_upd (fun x => x)); [exact Hr|]. unfold left_of. rewrite Eph. cbn [p_log p_phase left_in length Nat.b2n]. destruct sent; cbn [is_some Nat.b2n]; lia.
    + destruct (memb s posts) eqn:Em; [|discriminate]. destruct (take s r r (mail σ)) as [[[c|l] ms]|]; try discriminate. destruct (_ <=? _); [|discriminate].
      intros H. injection H as <-. apply (sum_upd (fun x => x)); [exact Hr|]. unfold left_of. rewrite Eph. cbn [p_log p_phase left_in]. pose proof (filter_lt_memb s posts Em). lia.
Qed.
Lemma moves_work cs σ : inv σ -> moves n nbrs payload dummy calls false σ cs <= work σ.
Proof.
  revert σ. induction cs as [|c cs IH]; intros σ I; [cbn; lia|]. cbn [moves]. pose proof (step_ok c σ I) as H. pose proof (fun σ' => step_work c σ σ' I) as W.
  destruct (step c σ) as [| |σ']; [apply IH; exact I|destruct H|]. specialize (W σ' eq_refl). specialize (IH σ' H). lia.
Qed.
Lemma start_work : work (start nbrs) <= n * (calls * per_call + per_call).
Proof.
  unfold work. cbn [start procs]. assert (H : forall l, (forall i, In i l -> i < n) -> list_sum (map (fun r => left_of (Proc [] (enter nbrs r))) l) <= length l * (calls * per_call + per_call)).
  { induction l as [|i l IH]; intros Hl; [cbn; lia|]. cbn [map length]. unfold list_sum in *. cbn [fold_right]. specialize (IH (fun j Hj => Hl j (or_intror Hj))).
    pose proof (nbr_length i (Hl i (or_introl eq_refl))) as Ln. unfold left_of at 1. cbn [p_log p_phase enter left_in length is_some Nat.b2n]. rewrite Nat.sub_0_r. unfold per_call in *. lia. }
  specialize (H (seq 0 n)). rewrite seq_length in H. apply H. intros i Hi. apply in_seq in Hi. lia.
Qed.

(** ** Nothing is left in the network *)
Definition mail_ok (ms : list msg) : Prop := Forall (fun m => m_to m < n /\ In (m_from m) (nbrs (m_to m)) /\ (m_tag m = m_from m \/ m_tag m = m_to m)) ms.
Lemma take_mail s r g ms b ms' : take s r g ms = Some (b, ms') -> mail_ok ms -> mail_ok ms'.
Proof.
  revert ms'. induction ms as [|m ms IH]; intros ms' E H; [discriminate|]. cbn [take] in E. inversion_clear H as [|? ? Hm Hms]. destruct (on s r g m); [injection E as <- <-; exact Hms|].
  destruct (take s r g ms) as [[b' t]|] eqn:Et; [|discriminate]. cbn [option_map fst snd] in E. injection E as <- <-. constructor; [exact Hm|]. apply (IH t); [reflexivity|exact Hms].
Qed.
Lemma step_mail c (σ σ' : state) : inv σ -> mail_ok (mail σ) -> step c σ = Next σ' -> mail_ok (mail σ').
Proof.
  intros [I1 _] M. destruct c as [r b|s r]; cbn [MpiModel.step].
  - destruct (Nat.ltb_spec r n) as [Hr|]; [|discriminate]. pose proof (I1 r Hr) as (_ & _ & Ph). unfold run_proc. destruct (_ =? calls); [discriminate|].
    assert (A : forall q g bd, In q (nbrs r) -> g = r \/ g = q -> mail_ok (mail σ ++ [Msg r q g bd])).
    { intros q g bd Hq Hg. apply Forall_app. split; [exact M|]. constructor; [|constructor]. cbn [m_from m_to m_tag]. split; [|split]; [apply (nbr_lt r); assumption|apply nbr_sym; assumption|exact Hg]. }
    destruct (p_phase (procs σ r)) as [todo posted sent got counts|posts bufs sends open]; cbn [phase_ok] in Ph.
    + destruct Ph as ((done & Ed) & _). destruct todo as [|q todo]; [|destruct posted; [destruct sent as [e|]|]].
      * intros H. injection H as <-. exact M.
      * destruct (got && _); [|discriminate]. intros H. injection H as <-. exact M.
      * cbn [andb]. intros H. injection H as <-. apply A; [|auto]. rewrite Ed. apply in_or_app. right. left. reflexivity.
      * intros H. injection H as <-. exact M.
    + destruct Ph as (_ & _ & _ & _ & _ & Hs & _). destruct sends as [|q sends].
      * destruct posts; [|discriminate]. destruct (forallb _ open); [|discriminate]. intros H. injection H as <-. exact M.
      * intros H. injection H as <-. apply A; [apply (Hs q); left; reflexivity|auto].
  - destruct ((s <? n) && (r <? n)); [|discriminate]. unfold deliver. destruct (p_phase (procs σ r)) as [todo posted sent got counts|posts bufs sends open].
    + destruct todo as [|q todo]; [discriminate|]. destruct posted; [|discriminate]. destruct got; [discriminate|]. destruct (q =? s); [|discriminate].
      destruct (take s r s (mail σ)) as [[[c|l] ms]|] eqn:Et; try discriminate. intros H. injection H as <-. exact (take_mail _ _ _ _ _ _ Et M).
    + destruct (memb s posts); [|discriminate]. destruct (take s r r (mail σ)) as [[[c|l] ms]|] eqn:Et; try discriminate. destruct (_ <=? _); [|discriminate].
      intros H. injection H as <-. exact (take_mail _ _ _ _ _ _ Et M).
Qed.
Lemma run_mail cs (σ σ' : state) : inv σ -> mail_ok (mail σ) -> run n nbrs payload dummy calls false σ cs = Some σ' -> inv σ' /\ mail_ok (mail σ').
Proof.
  revert σ. induction cs as [|c cs IH]; intros σ I M E; [injection E as <-; auto|]. cbn [run] in E. pose proof (step_ok c σ I) as H. pose proof (fun σ1 => step_mail c σ σ1 I M) as SM.
  destruct (step c σ) as [| |σ1]; [apply (IH σ); assumption|destruct H|]. apply (IH σ1); [exact H|apply SM; reflexivity|exact E].
Qed.
Lemma done_mail (σ : state) : inv σ -> mail_ok (mail σ) -> (forall r, r < n -> length (p_log (procs σ r)) = calls) -> mail σ = [].
Proof.
  intros [I1 I2] M D. destruct (mail σ) as [|m ms] eqn:Em; [reflexivity|exfalso]. inversion M as [|m0 ms0 (Hr & Hs & Hg) _ [Em0 Ems0]].
  remember (m_to m) as r. remember (m_from m) as s. pose proof (nbr_lt r s Hr Hs) as Hsn. pose proof (nbr_sym r s Hr Hs) as Hrs.
  assert (C : forall x, x < n -> exists todo sent got counts, p_phase (procs σ x) = Counting (nbrs x) todo sent got counts /\ sent = None /\ got = false).
  { intros x Hx. pose proof (I1 x Hx) as (_ & _ & Ph). rewrite (D x Hx) in Ph. destruct (p_phase (procs σ x)) as [todo posted sent got counts|posts bufs sends open]; cbn [phase_ok] in Ph; [|lia].
    destruct Ph as (_ & Pp & _ & Pk & _). destruct (Pk eq_refl) as [-> ->]. destruct (Pp eq_refl) as [-> ->]. do 4 eexists. split; [reflexivity|auto]. }
  destruct (C r Hr) as (? & ? & ? & ? & Er & -> & ->). destruct (C s Hsn) as (? & ? & ? & ? & Es & -> & ->).
  pose proof (I2 s r Hr Hs) as [[_ E1] [_ E2]]. unfold csent, cgot, dsent, dgot in E1, E2. rewrite Er, Es, (D r Hr), (D s Hsn) in E1, E2.
  apply memb_In in Hs, Hrs. rewrite Hs, Hrs, !andb_false_r, Nat.sub_diag in E1. rewrite Nat.sub_diag in E2. cbn [seq map filter] in E1, E2. unfold chan in E1, E2. cbn [filter] in E1, E2.
  assert (O1 : on s r (m_tag m) m = true) by (apply on_iff; auto). destruct Hg as [Hg|Hg]; rewrite Hg in O1; [rewrite O1 in E1; discriminate|rewrite O1 in E2; discriminate].
Qed.
Lemma run_app cs cs' (σ σ1 : state) : run n nbrs payload dummy calls false σ cs = Some σ1 -> run n nbrs payload dummy calls false σ (cs ++ cs') = run n nbrs payload dummy calls false σ1 cs'.
Proof.
  revert σ. induction cs as [|c cs IH]; intros σ E; [injection E as <-; reflexivity|]. cbn [run app] in *. destruct (step c σ); [apply IH; exact E|discriminate|apply IH; exact E].
Qed.
Lemma completes (σ : state) : inv σ -> exists cs σ', run n nbrs payload dummy calls false σ cs = Some σ' /\ inv σ' /\ forall r, r < n -> length (p_log (procs σ' r)) = calls.
Proof.
  remember (work σ) as k eqn:Ek. revert σ Ek. induction k as [k IH] using (well_founded_induction lt_wf). intros σ -> I. destruct (progress σ I) as [D|(c & σ1 & E)]; [exists [], σ; auto|].
  pose proof (step_ok c σ I) as H. pose proof (step_work c σ σ1 I E) as W. rewrite E in H. destruct (IH _ W σ1 eq_refl H) as (cs & σ' & R). exists (c :: cs), σ'. cbn [run]. rewrite E. exact R.
Qed.
End Proofs.
