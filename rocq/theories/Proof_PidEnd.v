(** Proofs about the termination of adaptive solves without [dtmin]. *)
From Coq Require Import QArith Qabs Qminmax ZArith List Bool Arith Lia Lqa.
From Verif Require Import Model_Result Model_Loop Spec_Loop Proof_LoopBasic Proof_LoopFinish
  Model_Float Model_PID Spec_PID Proof_PID Spec_PidEnd.
Import ListNotations.
Open Scope Q_scope.

Lemma qabs_le x u : Qabs x <= u -> - u <= x /\ x <= u.
Proof. intros H. apply Qabs_Qle_condition in H. exact H. Qed.

(** Neighbouring floats are at most [2 u] apart. *)
Lemma gap val rnd t0 t1 u a : rounding val rnd -> rounding_error val rnd t0 t1 u ->
  (t0 <= a)%Z -> (a + 1 <= t1)%Z -> val (a + 1)%Z - val a <= 2 * u.
Proof.
  intros Hr Hu H0 H1. set (x := (val a + val (a + 1)%Z) / 2).
  pose proof (rd_val _ _ Hr a (a + 1)%Z ltac:(lia)). pose proof (rd_val _ _ Hr t0 a H0).
  pose proof (rd_val _ _ Hr _ _ H1).
  assert (Hx : x * 2 == val a + val (a + 1)%Z) by (unfold x; field).
  destruct (qabs_le _ _ (Hu x ltac:(lra) ltac:(lra))) as [A B].
  destruct (Z.le_gt_cases (rnd x) a) as [L|L].
  - pose proof (rd_val _ _ Hr _ _ L). lra.
  - pose proof (rd_val _ _ Hr (a + 1)%Z (rnd x) ltac:(lia)). lra.
Qed.
Lemma gaps val rnd t0 t1 u n a : rounding val rnd -> rounding_error val rnd t0 t1 u ->
  (t0 <= a)%Z -> (a + Z.of_nat n <= t1)%Z ->
  val (a + Z.of_nat n)%Z - val a <= 2 * u * inject_Z (Z.of_nat n).
Proof.
  intros Hr Hu H0. induction n as [|n IH]; intros H1.
  - rewrite Z.add_0_r. change (inject_Z (Z.of_nat 0)) with 0. lra.
  - rewrite Nat2Z.inj_succ in *. unfold Z.succ in *. specialize (IH ltac:(lia)).
    pose proof (gap _ _ _ _ _ (a + Z.of_nat n)%Z Hr Hu ltac:(lia) ltac:(lia)) as G.
    rewrite inject_Z_plus. replace (a + (Z.of_nat n + 1))%Z with (a + Z.of_nat n + 1)%Z by lia.
    change (inject_Z 1) with 1. lra.
Qed.
Lemma last_gap val rnd t0 t1 u a : rounding val rnd -> rounding_error val rnd t0 t1 u -> 0 <= u ->
  (t0 <= a)%Z -> (t1 - 100 < a)%Z -> (a <= t1)%Z -> val t1 - val a <= 200 * u.
Proof.
  intros Hr Hu Hu0 H0 H1 H2.
  pose proof (gaps _ _ _ _ _ (Z.to_nat (t1 - a)) a Hr Hu H0 ltac:(lia)) as G.
  rewrite Z2Nat.id in G by lia. replace (a + (t1 - a))%Z with t1 in G by lia.
  assert (inject_Z (t1 - a) <= 100) by (change 100 with (inject_Z 100); rewrite <- Zle_Qle; lia).
  nra.
Qed.

Section PidEnd.
  Context {SS DI V MS : Type}.
  Notation config := (config tree SS pid_state DI tree V MS).
  Notation initial := (initial tree SS pid_state MS).
  Notation state := (state tree SS pid_state DI V MS).

  (** The controller, in real numbers. *)
  Lemma pid_real val rnd p a b y0 y1 err s :
    rounding val rnd -> pid_ok p -> scaled_error p y0 y1 err <> QNaN -> pid_state_ok s -> (a <= b)%Z ->
    dtmin p = None ->
    let ao := pid_loop_adapt val rnd p a b y0 y1 err s in
    ao_tprev ao = (if ao_keep ao then b else a) /\ pid_state_ok (ao_state ao) /\
    exists f dt,
      ao_tnext ao = rnd (val (ao_tprev ao) + dt) /\
      (if ao_keep ao then 1 else factormin p) <= f /\ f <= (if ao_keep ao then factormax p else safety p) /\
      (dt == (val b - val a) * f \/ exists M, dtmax p = Some M /\ dt = M /\ M <= (val b - val a) * f).
  Proof.
    intros Hr Hp Hn Hs Hab Hm ao.
    pose proof (rd_val _ _ Hr _ _ Hab) as Hv.
    destruct (pid_adapt_spec p (val a) (val b) y0 y1 err s Hp Hs Hv Hn)
      as (H0 & f & dt1 & dt & F1 & F2 & D1 & D2 & D3 & D4 & T1 & A1 & _ & R1 & St).
    set (r := pid_adapt p (QFin (val a)) (QFin (val b)) y0 y1 err s) in *.
    assert (Hk : ao_keep ao = po_keep r) by reflexivity.
    assert (Htp : ao_tprev ao = if po_keep r then b else a).
    { unfold ao, pid_loop_adapt. fold r. cbn [ao_tprev]. rewrite H0. destruct (po_keep r); apply (rd_id _ _ Hr). }
    assert (Hvp : (if po_keep r then val b else val a) = val (ao_tprev ao))
      by (rewrite Htp; destruct (po_keep r); reflexivity).
    assert (Htn : ao_tnext ao = rnd (val (ao_tprev ao) + dt)).
    { unfold ao at 1, pid_loop_adapt. fold r. cbn [ao_tnext]. rewrite T1, Hvp. reflexivity. }
    split; [rewrite Hk; exact Htp|]. split; [exact St|].
    exists f, dt. split; [exact Htn|]. rewrite Hk. split; [exact F1|]. split; [exact F2|].
    destruct D3 as [->|(m & Hm' & _)]; [exact D1|congruence].
  Qed.

  Definition end_inv (val : Z -> Q) (delta r : Q) (c : config) (s : state) : Prop :=
    (cfg_t0 c <= st_tprev s <= cfg_t1 c)%Z /\
    (cond_fun c s = true ->
     pid_state_ok (st_controller_state s) /\ (st_tprev s < st_tnext s <= cfg_t1 c)%Z /\
     (st_tnext s = cfg_t1 c \/
      2 * delta - r * (val (st_tprev s) - val (cfg_t0 c)) <= val (st_tnext s) - val (st_tprev s))).

  Definition potential (val : Z -> Q) (k1 k2 : Q) (c : config) (s : state) : Q :=
    k1 * (val (cfg_t1 c) - val (st_tprev s)) + k2 * (val (st_tnext s) - val (st_tprev s)).

  Lemma end_step val rnd p (c : config) h delta u r k1 k2 s :
    rounding val rnd -> pid_ok p -> dtmin p = None -> attempt_error p c s <> QNaN ->
    (forall a b y0 y1 err s, adapt c a b y0 y1 err s = pid_loop_adapt val rnd p a b y0 y1 err s) ->
    stepto_len c = None -> midpoint_ok c ->
    rounding_error val rnd (cfg_t0 c) (cfg_t1 c) u ->
    midpoint_error val (midpoint c) (cfg_t0 c) (cfg_t1 c) u ->
    negligible p (val (cfg_t1 c) - val (cfg_t0 c)) h delta u ->
    0 <= r -> r * delta == u -> r * (val (cfg_t1 c) - val (cfg_t0 c)) <= delta ->
    0 <= k2 -> k2 * ((1 - safety p) * h / 2) == 1 ->
    0 <= k1 -> k1 * delta == 1 + k2 * (val (cfg_t1 c) - val (cfg_t0 c)) ->
    end_inv val delta r c s -> cond_fun c s = true ->
    (val (st_tnext s) - val (st_tprev s) <= h -> at_keep (attempt_of c s) = true) ->
    end_inv val delta r c (body_fun c s) /\
    (cond_fun c (body_fun c s) = true ->
     potential val k1 k2 c (body_fun c s) + 1 <= potential val k1 k2 c s).
  Proof.
    intros Hr Hp Hm Hn Ha Hst Hmid Hu Hmu [Nh Nd Nu Nacc Nfm Nhalf Nmax Ns] R0 R1 R2 K2 K2' K1 K1' (Ht & HI) Hc Hshort.
    destruct (HI Hc) as (Hs & Hb & Hlen). clear HI.
    unfold end_inv, potential.
    rewrite body_tprev, body_tnext, body_controller_state.
    rewrite attempt_of_eq in Hshort |- *. rewrite floor_lt.
    cbn [at_end at_keep] in Hshort |- *.
    assert (Hao : do_adapt c s = pid_loop_adapt val rnd p (st_tprev s) (st_tnext s) (st_y s)
              (so_y (do_step c s)) (nan_to_inf c (so_error (do_step c s))) (st_controller_state s)).
    { unfold do_adapt. apply Ha. }
    destruct (pid_real val rnd p (st_tprev s) (st_tnext s) (st_y s)
              (so_y (do_step c s)) (nan_to_inf c (so_error (do_step c s))) (st_controller_state s)
              Hr Hp Hn Hs ltac:(lia) Hm) as (T1 & S1 & f & dt & T2 & F1 & F2 & D).
    rewrite <- Hao in T1, S1, T2, F1, F2.
    assert (Hlt1 : cond_fun c (body_fun c s) = true ->
              (Z.min (ao_tprev (do_adapt c s)) (cfg_t1 c) < cfg_t1 c)%Z).
    { intros Hc'. pose proof (cond_lt_t1 _ _ Hc' Hst) as G. rewrite body_tprev, attempt_of_eq in G. exact G. }
    clear Hao. set (ao := do_adapt c s) in *. clearbody ao.
    set (a := st_tprev s) in *. set (b := st_tnext s) in *. set (t1 := cfg_t1 c) in *. set (t0 := cfg_t0 c) in *.
    pose proof (rd_val _ _ Hr t0 a ltac:(lia)) as V0. pose proof (rd_val _ _ Hr a b ltac:(lia)) as V1.
    pose proof (rd_val _ _ Hr b t1 ltac:(lia)) as V2.
    pose proof (ok_factormin p Hp) as PF. pose proof (ok_safety1 p Hp) as PS. pose proof (ok_safety p Hp) as PS'.
    assert (Rle : forall x, x <= val t1 - val t0 -> r * x <= delta) by (intros x Hx; nra).
    unfold clip_to_end.
    destruct (ao_keep ao) eqn:Hk; rewrite T1 in *.
    - rewrite (Z.min_l b t1) in * by lia.
      assert (Hnext : cond_fun c (body_fun c s) = true ->
        (b < (if (t1 - 100 <? ao_tnext ao)%Z then t1 else ao_tnext ao) <= t1)%Z /\
        ((if (t1 - 100 <? ao_tnext ao)%Z then t1 else ao_tnext ao) = t1 \/
         2 * delta - r * (val b - val t0) <= val (if (t1 - 100 <? ao_tnext ao)%Z then t1 else ao_tnext ao) - val b) /\
        delta <= val b - val a).
      { intros Hc'. specialize (Hlt1 Hc').
        destruct Hlen as [He|Hlen]; [lia|].
        pose proof (Rle (val a - val t0) ltac:(lra)).
        assert (Hd : delta <= val b - val a) by lra.
        destruct (Z.ltb_spec (t1 - 100) (ao_tnext ao)) as [L|L].
        - split; [lia|]. split; [left; reflexivity|exact Hd].
        - assert (Hx : val b + dt < val t1).
          { destruct (Qlt_le_dec (val b + dt) (val t1)) as [|G]; [assumption|exfalso].
            apply (rd_mono _ _ Hr) in G. rewrite (rd_id _ _ Hr) in G. lia. }
          assert (Hdt : 2 * delta - r * (val a - val t0) <= dt).
          { destruct D as [D|(M & HM & -> & _)].
            - rewrite D. nra.
            - pose proof (Nmax M HM). assert (0 <= r * (val a - val t0)) by nra. lra. }
          destruct (qabs_le _ _ (Hu (val b + dt) ltac:(lra) ltac:(lra))) as [A B]. rewrite <- T2 in A, B.
          assert (Hru : u <= r * (val b - val a)) by nra.
          assert (G : 2 * delta - r * (val b - val t0) <= val (ao_tnext ao) - val b) by lra.
          pose proof (Rle (val b - val t0) ltac:(lra)).
          split; [|split; [right; exact G|exact Hd]]. split; [|lia].
          destruct (Z.le_gt_cases (ao_tnext ao) b) as [Hle|]; [|assumption].
          pose proof (rd_val _ _ Hr _ _ Hle). lra. }
      set (b' := if (t1 - 100 <? ao_tnext ao)%Z then t1 else ao_tnext ao) in *. clearbody b'.
      split; [split; [lia|intros Hc'; specialize (Hnext Hc'); split; [exact S1|split; apply Hnext]]|].
      intros Hc'. destruct (Hnext Hc') as (N1 & _ & N3).
      pose proof (rd_val _ _ Hr b' t1 ltac:(lia)). nra.
    - rewrite (Z.min_l a t1) in * by lia.
      assert (Hlong : h < val b - val a).
      { destruct (Qlt_le_dec h (val b - val a)) as [|G]; [assumption|]. specialize (Hshort G). discriminate. }
      assert (Hdt : dt <= safety p * (val b - val a)).
      { destruct D as [D|(M & HM & -> & Hle)]; nra. }
      assert (Hdt' : 2 * delta + u <= dt).
      { destruct D as [D|(M & HM & -> & Hle)]; [rewrite D; nra|apply Nmax, HM]. }
      assert (Hx : val a + dt < val b) by nra.
      destruct (qabs_le _ _ (Hu (val a + dt) ltac:(lra) ltac:(lra))) as [A B]. rewrite <- T2 in A, B.
      assert (Hd1 : (1 - safety p) * h <= (1 - safety p) * (val b - val a)) by nra.
      assert (Hra : 0 <= r * (val a - val t0)) by nra.
      assert (Hb' : let b' := if (t1 - 100 <? ao_tnext ao)%Z then midpoint c a t1 else ao_tnext ao in
        (a < b' <= t1)%Z /\ 2 * delta <= val b' - val a /\
        val b' <= val b - (1 - safety p) * h / 2).
      { assert (Hz : (ao_tnext ao <= t1)%Z).
        { rewrite T2. rewrite <- (rd_id _ _ Hr t1). apply (rd_mono _ _ Hr). lra. }
        assert (Hlt : forall x, 2 * delta <= val x - val a -> (a < x)%Z).
        { intros x Hx'. destruct (Z.le_gt_cases x a) as [Hle|]; [|assumption].
          pose proof (rd_val _ _ Hr _ _ Hle). lra. }
        cbv zeta. destruct (Z.ltb_spec (t1 - 100) (ao_tnext ao)) as [L|L].
        - destruct (qabs_le _ _ (Hmu a ltac:(fold t0 t1; lia))) as [A' B']. fold t1 in A', B'.
          assert (Hhalf : (val a + val t1) / 2 * 2 == val a + val t1) by field.
          assert (Hh2 : h / 2 * 2 == h) by field.
          set (hf := (val a + val t1) / 2) in *. clearbody hf. set (h2 := h / 2) in *. clearbody h2.
          pose proof (last_gap _ _ _ _ _ (ao_tnext ao) Hr Hu Nu ltac:(specialize (Hlt (ao_tnext ao) ltac:(lra)); fold t0; lia) L Hz) as G.
          fold t1 in G.
          assert (H2 : 2 * delta <= val (midpoint c a t1) - val a) by lra.
          assert (Hs2 : (1 - safety p) * h / 2 * 2 == (1 - safety p) * h) by field.
          set (sh := (1 - safety p) * h / 2) in *. clearbody sh.
          split; [split; [apply Hlt, H2|apply (Hmid a t1); lia]|]. split; [exact H2|].
          assert (0 <= safety p * (val b - val a)) by nra. lra.
        - assert (H2 : 2 * delta <= val (ao_tnext ao) - val a) by lra.
          assert (Hs2 : (1 - safety p) * h / 2 * 2 == (1 - safety p) * h) by field.
          set (sh := (1 - safety p) * h / 2) in *. clearbody sh.
          split; [split; [apply Hlt, H2|exact Hz]|]. split; [exact H2|]. lra. }
      cbv zeta in Hb'. set (b' := if (t1 - 100 <? ao_tnext ao)%Z then midpoint c a t1 else ao_tnext ao) in *.
      clearbody b'. destruct Hb' as (B1 & B2 & B3).
      split; [split; [lia|intros _; split; [exact S1|split; [exact B1|right; lra]]]|].
      intros _. set (sh := (1 - safety p) * h / 2) in *. clearbody sh. nra.
  Qed.

  Lemma pf_C73_ends (val : Z -> Q) (rnd : Q -> Z) (p : pid_controller) (c : config) (i : initial)
        (s0 : state) (h delta u : Q) :
    rounding val rnd -> pid_ok p -> dtmin p = None -> pid_run val rnd p c i -> midpoint_ok c ->
    rounding_error val rnd (cfg_t0 c) (cfg_t1 c) u ->
    midpoint_error val (midpoint c) (cfg_t0 c) (cfg_t1 c) u ->
    let T := val (cfg_t1 c) - val (cfg_t0 c) in
    negligible p T h delta u -> first_step_at_least val c i (2 * delta) ->
    init_state c i = Some s0 -> no_nan_error p c s0 -> short_accepted val c s0 h ->
    ends_within c s0 ((T / delta + 1) * (2 * T / ((1 - safety p) * h) + 1)).
  Proof.
    intros Hr Hp Hm (Ha & Hst & Hs & Ht & Ht01) Hmid Hu Hmu T HN Hf Hi Hn Hsh.
    pose proof (rd_val _ _ Hr (cfg_t0 c) (cfg_t1 c) ltac:(lia)) as HT. 
    assert (HT0 : 0 <= T) by (unfold T; lra).
    pose proof (ok_safety1 p Hp) as PS.
    pose proof (ng_delta _ _ _ _ _ HN) as Nd. pose proof (ng_h _ _ _ _ _ HN) as Nh.
    pose proof (ng_u _ _ _ _ _ HN) as Nu. pose proof (ng_accumulate _ _ _ _ _ HN) as Nacc.
    assert (Hsh0 : 0 < (1 - safety p) * h) by nra.
    set (r := u / delta). set (k2 := 2 / ((1 - safety p) * h)). set (k1 := (1 + k2 * T) / delta).
    assert (R1 : r * delta == u) by (unfold r; field; lra).
    assert (R0 : 0 <= r) by (apply Qle_shift_div_l; lra).
    assert (R2 : r * T <= delta).
    { assert (r * T * delta <= delta * delta); [|nra].
      setoid_replace (r * T * delta) with (r * delta * T) by ring. rewrite R1. exact Nacc. }
    assert (K2' : k2 * ((1 - safety p) * h / 2) == 1) by (unfold k2; field; lra).
    assert (K2 : 0 <= k2) by (apply Qle_shift_div_l; lra).
    assert (K1' : k1 * delta == 1 + k2 * T) by (unfold k1; field; lra).
    assert (K1 : 0 <= k1) by (apply Qle_shift_div_l; [lra|nra]).
    assert (Hinv : end_inv val delta r c s0 /\ st_tprev s0 = cfg_t0 c /\
                   (cfg_t0 c < st_tnext s0 <= cfg_t1 c)%Z).
    { destruct (init_time _ _ _ Hi) as (I1 & _ & I3 & _ & _ & _ & _ & _ & I4 & _).
      unfold end_inv. rewrite I1, I3, I4. split; [|split; [reflexivity|lia]]. split; [lia|]. intros _.
      split; [exact Hs|]. split; [lia|].
      destruct (Z.le_gt_cases (cfg_t1 c) (in_tnext i)); [left; lia|right].
      rewrite Z.min_l by lia. specialize (Hf ltac:(lia)). lra. }
    assert (G : forall n s, end_inv val delta r c s -> no_nan_error p c s ->
              (forall m a, In a (history c m s) -> val (at_to a) - val (at_from a) <= h -> at_keep a = true) ->
              inject_Z (Z.of_nat (length (history c n s))) <=
              (if cond_fun c s then potential val k1 k2 c s + 1 else 0)).
    { induction n as [|n IH]; intros s HI Hn' Hsh'.
      - change (inject_Z (Z.of_nat (length (history c 0 s)))) with 0.
        destruct (cond_fun c s) eqn:Hc; [|lra]. destruct HI as [HI1 HI]. destruct (HI Hc) as (_ & HI' & _).
        unfold potential.
        pose proof (rd_val _ _ Hr (st_tprev s) (st_tnext s) ltac:(lia)).
        pose proof (rd_val _ _ Hr (st_tprev s) (cfg_t1 c) ltac:(lia)). nra.
      - cbn [history]. destruct (cond_fun c s) eqn:Hc; [|apply Qle_refl].
        destruct (end_step val rnd p c h delta u r k1 k2 s) as [HI' Hdec]; try assumption.
        { apply (Hn' 0%nat). exact Hc. }
        { intros Hl. refine (Hsh' 1%nat (attempt_of c s) _ Hl).
          cbn [history]. rewrite Hc. left. reflexivity. }
        specialize (IH (body_fun c s) HI').
        assert (Hn'' : no_nan_error p c (body_fun c s)).
        { intros m. specialize (Hn' (S m)). cbn [while_loop] in Hn'. rewrite Hc in Hn'. exact Hn'. }
        specialize (IH Hn'').
        assert (Hsh'' : forall m a, In a (history c m (body_fun c s)) ->
                  val (at_to a) - val (at_from a) <= h -> at_keep a = true).
        { intros m a Hin. apply (Hsh' (S m) a). cbn [history]. rewrite Hc. right. exact Hin. }
        specialize (IH Hsh''). cbn [length]. rewrite Nat2Z.inj_succ. unfold Z.succ. rewrite inject_Z_plus.
        change (inject_Z 1) with 1.
        destruct (cond_fun c (body_fun c s)).
        + specialize (Hdec eq_refl). lra.
        + destruct HI as [HI1 HI]. destruct (HI Hc) as (_ & HI2 & _). unfold potential.
          pose proof (rd_val _ _ Hr (st_tprev s) (st_tnext s) ltac:(lia)).
          pose proof (rd_val _ _ Hr (st_tprev s) (cfg_t1 c) ltac:(lia)). nra. }
    destruct Hinv as (HI & Htp & Htn).
    assert (Hbound : potential val k1 k2 c s0 + 1 <= (T / delta + 1) * (2 * T / ((1 - safety p) * h) + 1)).
    { assert (E1 : (T / delta + 1) * (2 * T / ((1 - safety p) * h) + 1) == k1 * T + k2 * T + 1)
        by (unfold k1, k2; field; split; lra).
      rewrite E1. unfold potential. rewrite Htp. fold T.
      pose proof (rd_val _ _ Hr (st_tnext s0) (cfg_t1 c) ltac:(lia)). unfold T in *. nra. }
    assert (Hlen : forall n, inject_Z (Z.of_nat (length (history c n s0))) <=
                     (T / delta + 1) * (2 * T / ((1 - safety p) * h) + 1)).
    { intros n. eapply Qle_trans; [apply (G n s0 HI Hn); exact Hsh|].
      destruct (cond_fun c s0); [exact Hbound|].
      eapply Qle_trans; [|exact Hbound]. unfold potential. rewrite Htp.
      pose proof (rd_val _ _ Hr (cfg_t0 c) (st_tnext s0) ltac:(lia)). unfold T in *. nra. }
    split; [exact Hlen|]. intros n Hn'.
    destruct (cond_fun c (while_loop c n s0)) eqn:Hc; [|reflexivity]. exfalso.
    assert (Hfull : forall n s, cond_fun c (while_loop c n s) = true -> length (history c n s) = n).
    { clear. induction n as [|n IH]; intros s H; [reflexivity|]. cbn [while_loop history] in *.
      destruct (cond_fun c s) eqn:Hc; [|congruence]. cbn [length]. rewrite IH; [reflexivity|exact H]. }
    specialize (Hlen n). rewrite (Hfull n s0 Hc) in Hlen. lra.
  Qed.

  (** Errors proportional to the length of the step. *)
  Lemma scaled_leaf p k y0 y1 err :
    0 < atol p -> 0 <= rtol p -> 0 <= k ->
    Forall (fun x => exists q, x = QFin q) y0 -> Forall (fun x => exists q, x = QFin q) y1 ->
    Forall (fun x => exists r, x = QFin r /\ Qabs r <= k) err ->
    Forall (fun x => exists r, x = QFin r /\ Qabs r <= k / atol p) (scale_leaf p y0 y1 err).
  Proof.
    intros Ha Hr Hk H0 H1 He. unfold scale_leaf.
    set (y1' := if existsb is_nan y1 then y0 else y1).
    assert (H1' : Forall (fun x => exists q, x = QFin q) y1') by (unfold y1'; destruct (existsb _ _); assumption).
    clearbody y1'. clear H1.
    assert (Hy : Forall (fun x => exists q, x = QFin q /\ 0 <= q) (map2 (fun a b => xmax (xabs a) (xabs b)) y0 y1')).
    { revert y1' H1'. induction H0 as [|a l (qa & ->) _ IH]; intros l' H'; [constructor|].
      destruct H' as [|b l' (qb & ->) H']; [constructor|]. cbn [map2]. constructor; [|apply IH, H'].
      cbn [xabs]. destruct (xmax_fin (Qabs qa) (Qabs qb)) as (m & -> & M1 & _). exists m. split; [reflexivity|].
      pose proof (Qabs_nonneg qa). lra. }
    set (ys := map2 _ y0 y1') in *. clearbody ys. clear H0 H1' y1'.
    revert ys Hy. induction He as [|e l (qe & -> & He) _ IH]; intros ys Hy; [constructor|].
    destruct Hy as [|y ys (qy & -> & Hy0) Hy]; [constructor|]. cbn [map2]. constructor; [|apply IH, Hy].
    cbn [xmul xadd]. unfold xdiv. set (d := atol p + qy * rtol p).
    assert (Hd : atol p <= d) by (unfold d; nra).
    destruct (Qeq_bool d 0) eqn:E; [apply Qeq_bool_iff in E; lra|].
    exists (qe / d). split; [reflexivity|].
    assert (H1 : Qabs (qe / d) == Qabs qe / d).
    { unfold Qdiv. rewrite Qabs_Qmult. rewrite (Qabs_pos (/ d)); [reflexivity|].
      apply Qlt_le_weak, Qinv_lt_0_compat. lra. }
    rewrite H1. pose proof (Qabs_nonneg qe).
    apply Qle_shift_div_r; [lra|].
    assert (H2 : k / atol p * atol p == k) by (field; lra).
    assert (0 <= k / atol p) by (apply Qle_shift_div_l; lra). nra.
  Qed.
  Lemma scaled_tree p k y0 y1 err :
    0 < atol p -> 0 <= rtol p -> 0 <= k -> norm_below_max p ->
    finite_tree y0 -> finite_tree y1 -> bounded_tree k err ->
    exists r, scaled_error p y0 y1 err = QFin r /\ r <= k / atol p.
  Proof.
    intros Ha Hr Hk Hn H0 H1 He. unfold scaled_error. apply Hn.
    { apply Qle_shift_div_l; lra. }
    unfold bounded_tree, finite_tree in *.
    revert y1 err H1 He. induction H0 as [|a l H _ IH]; intros y1 err H1 He; [constructor|].
    destruct H1 as [|b y1 Hb H1]; [constructor|]. cbn [combine].
    destruct He as [|e err Hee He]; [constructor|]. cbn [map2 fst snd]. constructor.
    - apply scaled_leaf; assumption.
    - apply (IH y1 err H1 He).
  Qed.

  Definition fin_inv (c : config) (s : state) : Prop :=
    (cfg_t0 c <= st_tprev s <= cfg_t1 c)%Z /\ finite_tree (st_y s) /\
    (cond_fun c s = true ->
     pid_state_ok (st_controller_state s) /\ (st_tprev s <= st_tnext s <= cfg_t1 c)%Z).

  Lemma fin_step val rnd p (c : config) k s :
    rounding val rnd -> pid_ok p -> dtmin p = None -> 0 < atol p -> 0 <= rtol p -> 0 <= k -> norm_below_max p ->
    (forall a b y0 y1 err s, adapt c a b y0 y1 err s = pid_loop_adapt val rnd p a b y0 y1 err s) ->
    stepto_len c = None -> midpoint_ok c -> error_at_most val c k ->
    fin_inv c s -> cond_fun c s = true ->
    fin_inv c (body_fun c s) /\
    exists r, attempt_error p c s = QFin r /\ r <= k * (val (st_tnext s) - val (st_tprev s)) / atol p /\
      at_keep (attempt_of c s) = negb (Qle_bool 1 r).
  Proof.
    intros Hr Hp Hm HA HR HK HN Ha Hst Hmid He (Ht & Hy & HI) Hc.
    destruct (HI Hc) as (Hs & Hb). clear HI.
    destruct (He (st_tprev s) (st_tnext s) (st_y s) (st_solver_state s) (st_made_jump s)
                ltac:(lia) ltac:(lia) ltac:(lia) Hy) as (E1 & E2 & E3).
    pose proof (rd_val _ _ Hr (st_tprev s) (st_tnext s) ltac:(lia)) as HV.
    destruct (scaled_tree p (k * (val (st_tnext s) - val (st_tprev s))) (st_y s) _ _ HA HR ltac:(nra) HN Hy E1 E2)
      as (r & Er & Hle).
    assert (Hat : attempt_error p c s = QFin r) by (unfold attempt_error; rewrite E3; exact Er).
    assert (Hao : do_adapt c s = pid_loop_adapt val rnd p (st_tprev s) (st_tnext s) (st_y s)
              (so_y (do_step c s)) (nan_to_inf c (so_error (do_step c s))) (st_controller_state s)).
    { unfold do_adapt. apply Ha. }
    assert (Hkeep : ao_keep (do_adapt c s) = negb (Qle_bool 1 r)).
    { rewrite Hao. unfold pid_loop_adapt. cbn [ao_keep]. unfold pid_adapt. rewrite Hm.
      change (scaled_error p (st_y s) (so_y (do_step c s)) (nan_to_inf c (so_error (do_step c s))))
        with (attempt_error p c s). rewrite Hat. reflexivity. }
    split; [|exists r; split; [exact Hat|split; [exact Hle|rewrite attempt_of_eq; exact Hkeep]]].
    destruct (pid_real val rnd p (st_tprev s) (st_tnext s) (st_y s)
              (so_y (do_step c s)) (nan_to_inf c (so_error (do_step c s))) (st_controller_state s)
              Hr Hp ltac:(change (attempt_error p c s <> QNaN); rewrite Hat; discriminate) Hs ltac:(lia) Hm)
      as (T1 & S1 & f & dt & T2 & F1 & F2 & D).
    rewrite <- Hao in T1, S1, T2, F1, F2.
    assert (Hlt1 : cond_fun c (body_fun c s) = true ->
              (Z.min (ao_tprev (do_adapt c s)) (cfg_t1 c) < cfg_t1 c)%Z).
    { intros Hc'. pose proof (cond_lt_t1 _ _ Hc' Hst) as G. rewrite body_tprev, attempt_of_eq in G. exact G. }
    unfold fin_inv. rewrite body_tprev, body_tnext, body_controller_state, body_y, attempt_of_eq, floor_lt.
    cbn [at_end at_keep at_y].
    assert (Hfin : finite_tree (if ao_keep (do_adapt c s) then so_y (do_step c s) else st_y s)).
    { destruct (ao_keep _); [exact E1|exact Hy]. }
    assert (Hnx : (ao_tprev (do_adapt c s) <= ao_tnext (do_adapt c s))%Z).
    { rewrite T2. rewrite <- (rd_id _ _ Hr (ao_tprev (do_adapt c s))) at 1. apply (rd_mono _ _ Hr).
      pose proof (ok_factormin p Hp). pose proof (ok_dtmax p Hp).
      assert (0 <= dt); [|lra]. destruct D as [D|(M & HM & -> & _)].
      - rewrite D. destruct (ao_keep (do_adapt c s)); nra.
      - apply Qlt_le_weak. auto. }
    split; [destruct (ao_keep _); lia|]. split; [exact Hfin|].
    intros Hc'. specialize (Hlt1 Hc'). split; [exact S1|].
    unfold clip_to_end. destruct (Z.ltb_spec (cfg_t1 c - 100) (ao_tnext (do_adapt c s))) as [L|L]; [|lia].
    destruct (ao_keep (do_adapt c s)); [lia|]. apply Hmid. lia.
  Qed.

  Lemma small_errors_accepted (val : Z -> Q) (rnd : Q -> Z) (p : pid_controller) (c : config) (i : initial)
        (s0 : state) (k h : Q) :
    rounding val rnd -> pid_ok p -> dtmin p = None -> pid_run val rnd p c i -> midpoint_ok c ->
    init_state c i = Some s0 ->
    norm_below_max p -> 0 <= rtol p -> finite_tree (in_y i) ->
    0 <= k -> error_at_most val c k -> 0 < h -> k * h < atol p ->
    no_nan_error p c s0 /\ short_accepted val c s0 h.
  Proof.
    intros Hr Hp Hm Hrun Hmid Hi HNm HR Hy HK He Nh Hkh.
    pose proof Hrun as (Ha & Hst & Hs & Ht & Ht01).
    assert (HA : 0 < atol p) by nra.
    assert (HI : fin_inv c s0).
    { destruct (init_time _ _ _ Hi) as (I1 & I2 & I3 & _ & _ & _ & _ & _ & I4 & _).
      unfold fin_inv. rewrite I1, I2, I3, I4. split; [lia|]. split; [exact Hy|]. intros _. split; [exact Hs|lia]. }
    split.
    - intros n. clear Hi. revert s0 HI. induction n as [|n IH]; intros s HI Hc.
      + cbn [while_loop] in *.
        destruct (fin_step val rnd p c k s) as (_ & r & E & _); try assumption. rewrite E. discriminate.
      + cbn [while_loop] in *. destruct (cond_fun c s) eqn:Hc'; [|congruence].
        destruct (fin_step val rnd p c k s) as (HI' & _); try assumption. apply (IH _ HI' Hc).
    - intros n. clear Hi. revert s0 HI. induction n as [|n IH]; intros s HI a Hin Hl; [destruct Hin|].
      cbn [history] in Hin. destruct (cond_fun c s) eqn:Hc'; [|destruct Hin].
      destruct (fin_step val rnd p c k s) as (HI' & r & _ & Hle & Hk); try assumption.
      destruct Hin as [<-|Hin]; [|apply (IH _ HI' a Hin Hl)].
      rewrite Hk. rewrite attempt_of_eq in Hl. cbn [at_to at_from] in Hl.
      destruct (Qle_bool 1 r) eqn:E; [|reflexivity]. exfalso. apply qle_spec in E.
      set (q := k * (val (st_tnext s) - val (st_tprev s))) in *.
      assert (Hq : q <= k * h) by (unfold q; nra). clearbody q.
      assert (H2 : q / atol p * atol p == q) by (field; lra).
      set (qa := q / atol p) in *. clearbody qa. nra.
  Qed.

  Lemma pf_C73_proportional_error (val : Z -> Q) (rnd : Q -> Z) (p : pid_controller) (c : config) (i : initial)
        (s0 : state) (k h delta u : Q) :
    rounding val rnd -> pid_ok p -> dtmin p = None -> pid_run val rnd p c i -> midpoint_ok c ->
    rounding_error val rnd (cfg_t0 c) (cfg_t1 c) u ->
    midpoint_error val (midpoint c) (cfg_t0 c) (cfg_t1 c) u ->
    let T := val (cfg_t1 c) - val (cfg_t0 c) in
    negligible p T h delta u -> first_step_at_least val c i (2 * delta) ->
    init_state c i = Some s0 ->
    norm_below_max p -> 0 <= rtol p -> finite_tree (in_y i) ->
    0 <= k -> error_at_most val c k -> k * h < atol p ->
    ends_within c s0 ((T / delta + 1) * (2 * T / ((1 - safety p) * h) + 1)).
  Proof.
    intros Hr Hp Hm Hrun Hmid Hu Hmu T HN Hf Hi HNm HR Hy HK He Hkh.
    destruct (small_errors_accepted val rnd p c i s0 k h) as [A B]; try assumption.
    { apply (ng_h _ _ _ _ _ HN). }
    apply (pf_C73_ends val rnd p c i s0 h delta u); assumption.
  Qed.
End PidEnd.
