(** * White space between the tokens of a flow collection *)
From Verif Require Export DocRun.
Open Scope nat_scope.

Definition wsl (w : bytes) : Prop := forallb is_ascii_ws w = true.
(** a token that ends a flow item *)
Definition closer (c : N) : Prop := In c (lit ",]}").

Lemma wsl_cons c w : wsl (c :: w) <-> is_ascii_ws c = true /\ wsl w.
Proof. unfold wsl. cbn. apply andb_true_iff. Qed.
Lemma wsl_app a b : wsl (a ++ b) <-> wsl a /\ wsl b.
Proof. unfold wsl. rewrite forallb_app. apply andb_true_iff. Qed.
Lemma ascii_ws_in c : is_ascii_ws c = true -> In c [32; 9; 10; 12; 13]%N.
Proof.
  unfold is_ascii_ws. intros H. repeat (apply orb_true_iff in H as [H|H]); apply N.eqb_eq in H; subst; simpl; auto 10.
Qed.
Lemma closer_not c : closer c -> is_ascii_ws c = false /\ c <> 35%N /\ c <> 10%N /\ c <> 13%N /\ c <> 32%N /\ c <> 58%N /\ is_ws c = false /\ (c < 128)%N.
Proof. intros [<-|[<-|[<-|[]]]]; repeat split; discriminate || reflexivity. Qed.
Lemma wsl_skipn k w : wsl w -> wsl (skipn k w).
Proof. intros H. rewrite <- (firstn_skipn k w) in H. now apply wsl_app in H as [_ H]. Qed.
Lemma wsl_ascii w : wsl w -> forallb (fun b => N.ltb b 128) w = true.
Proof.
  intros H. eapply forallb_impl; [|exact H]. intros c Hc. apply ascii_ws_in in Hc. apply N.ltb_lt. simpl in Hc. lia.
Qed.
Lemma span_ws w c r : wsl w -> is_ascii_ws c = false -> span is_ascii_ws (w ++ c :: r) = List.length w.
Proof. intros Hw Hc. apply span_app; [exact Hw|exact Hc]. Qed.
(** what [is_ws] takes of it *)
Lemma ws_split_list w : wsl w -> exists a b, w = a ++ b /\ forallb is_ws a = true
  /\ match b with [] => True | x :: _ => x = 10%N \/ x = 13%N end.
Proof.
  induction w as [|x w IH]; intros H; [exists [], []; auto|]. apply wsl_cons in H as [H1 H2].
  destruct (is_ws x) eqn:E.
  - destruct (IH H2) as (a & b & -> & Ha & Hb). exists (x :: a), b. cbn. rewrite E, Ha. auto.
  - exists [], (x :: w). split; [reflexivity|]. split; [reflexivity|]. apply ascii_ws_in in H1. simpl in H1.
    destruct H1 as [<-|[<-|[<-|[<-|[<-|[]]]]]]; auto; discriminate.
Qed.
Lemma ws_len_tail w c r : wsl w -> closer c -> exists a b, w = a ++ b /\ forallb is_ws a = true
  /\ ws_len (w ++ c :: r) = List.length a /\ (match b with [] => True | x :: _ => x = 10%N \/ x = 13%N end).
Proof.
  intros H Hc. destruct (ws_split_list w H) as (a & b & -> & Ha & Hb). exists a, b. split; [reflexivity|]. split; [exact Ha|].
  split; [|exact Hb]. unfold ws_len. rewrite <- app_assoc. destruct (b ++ c :: r) as [|y z] eqn:E; [destruct b; discriminate|].
  apply span_app; [exact Ha|]. destruct b as [|x b]; cbn [app] in E; injection E as <- _.
  - now apply closer_not in Hc.
  - destruct Hb as [-> | ->]; reflexivity.
Qed.
Lemma comment_none w c r : wsl w -> closer c -> comment_len (w ++ c :: r) = 0.
Proof.
  intros H Hc. destruct (ws_len_tail w c r H Hc) as (a & b & -> & Ha & E & Hb). unfold comment_len. rewrite E.
  rewrite <- app_assoc, skipn_app_len. destruct b as [|x b]; cbn [app].
  - destruct (N.eqb_spec c 35); [|reflexivity]. now apply closer_not in Hc.
  - destruct Hb as [-> | ->]; reflexivity.
Qed.
Lemma nl_len_in w c r : closer c -> nl_len (w ++ c :: r) <= List.length w.
Proof.
  intros Hc. apply closer_not in Hc as (_ & _ & H1 & H2 & _). rewrite nl_len_alt. unfold nl_len'.
  destruct w as [|x [|y w]]; cbn [app starts_with List.length].
  - rewrite (proj2 (N.eqb_neq 13 c)), (proj2 (N.eqb_neq 10 c)) by congruence. cbn.
    rewrite (proj2 (N.eqb_neq c 10)), (proj2 (N.eqb_neq c 13)) by congruence. reflexivity.
  - rewrite (proj2 (N.eqb_neq 13 c)), (proj2 (N.eqb_neq 10 c)) by congruence. rewrite !andb_false_r. cbn [andb orb].
    destruct (N.eqb x 10 || N.eqb x 13); lia.
  - repeat match goal with |- (if ?b then _ else _) <= _ => destruct b end; lia.
Qed.
Lemma gap_lines_in c r : closer c -> forall n w, wsl w -> snd (gap_lines n true (w ++ c :: r)) <= List.length w.
Proof.
  intros Hc. induction n as [|n IH]; intros w Hw; [simpl; lia|]. cbn [gap_lines]. cbv zeta. unfold line_skip.
  rewrite (comment_none w c r Hw Hc). cbn [skipn].
  pose proof (nl_len_in w c r Hc) as L. destruct (Nat.eqb_spec (nl_len (w ++ c :: r)) 0); [simpl; lia|]. cbn [snd Nat.add].
  rewrite skipn_app. replace (_ - List.length w) with 0 by lia. cbn [skipn].
  specialize (IH _ (wsl_skipn (nl_len (w ++ c :: r)) w Hw)). rewrite skipn_length in IH. lia.
Qed.
Lemma gap_in w c r t k : wsl w -> closer c -> gap_f true (w ++ c :: r) = Some (t, k) -> k <= List.length w.
Proof.
  intros Hw Hc. unfold gap_f, gap_head. rewrite (comment_none w c r Hw Hc). cbn [skipn]. cbv zeta.
  pose proof (nl_len_in w c r Hc) as L. destruct (Nat.eqb_spec (nl_len (w ++ c :: r)) 0); [discriminate|]. cbn [Nat.add].
  rewrite skipn_app. replace (nl_len (w ++ c :: r) - List.length w) with 0 by lia. cbn [skipn].
  pose proof (gap_lines_in c r Hc (S (List.length (skipn (nl_len (w ++ c :: r)) w ++ c :: r))) _ (wsl_skipn (nl_len (w ++ c :: r)) w Hw)) as G.
  rewrite skipn_length in G. revert G. generalize (gap_lines (S (List.length (skipn (nl_len (w ++ c :: r)) w ++ c :: r))) true (skipn (nl_len (w ++ c :: r)) w ++ c :: r)).
  intros [g1 g2]. cbn [fst snd]. intros G [= _ <-]. lia.
Qed.
Lemma sp_in w c r : closer c -> sp_len (w ++ c :: r) <= List.length w.
Proof.
  intros Hc. unfold sp_len. induction w as [|x w IH]; cbn [app span].
  - apply closer_not in Hc as (_ & _ & _ & _ & H & _). now rewrite (proj2 (N.eqb_neq c 32) H).
  - destruct (N.eqb x 32); cbn [List.length]; lia.
Qed.
Lemma trim_idem v : trim_end (trim_end v) = trim_end v.
Proof.
  induction v as [|c v IH]; [reflexivity|]. cbn [trim_end]. destruct (trim_end v) as [|d v'] eqn:E.
  - destruct (is_uni_ws c) eqn:W; [reflexivity|]. cbn. now rewrite W.
  - change (match trim_end (d :: v') with [] => if is_uni_ws c then [] else [c] | r' => c :: r' end = c :: d :: v'). now rewrite IH.
Qed.
Lemma depth_mono tb a b : a <= b -> depth tb a <= depth tb b.
Proof. induction 1; [lia|]. cbn [depth]. lia. Qed.
Lemma norm_idem L tb : ind_norm L (ind_norm L tb) = ind_norm L tb.
Proof.
  unfold ind_norm at 1. rewrite ind_norm_length. rewrite (proj2 (Nat.leb_gt (L + 1) L)) by lia.
  apply firstn_all2. rewrite ind_norm_length. lia.
Qed.
(** the indentation table only gets cut or filled up *)
Definition tb_ok (L : nat) (tb tb' : list nat) : Prop := tb' = tb \/ tb' = ind_norm L tb.
Lemma tb_ok_trans L a b c : tb_ok L a b -> tb_ok L b c -> tb_ok L a c.
Proof. intros [-> | ->] [-> | ->]; unfold tb_ok; auto. right. apply norm_idem. Qed.
Lemma tb_ok_depth L a b j : j <= L -> tb_ok L a b -> depth b j = depth a j.
Proof. intros Hj [-> | ->]; [reflexivity|]. now apply depth_norm. Qed.

Definition moved (L k : nat) (s s' : st) : Prop :=
  exists tb E, s' = set_pos (p_pos s + k) (set_eaten E (set_indent tb s)) /\ tb_ok L (p_indent s) tb.
Lemma moved_trans L a b s s1 s2 : moved L a s s1 -> moved L b s1 s2 -> moved L (a + b) s s2.
Proof.
  intros (tb & E & -> & H) (tb' & E' & -> & H'). exists tb', E'. split; [|eapply tb_ok_trans; eassumption].
  unfold set_pos, set_eaten, set_indent. cbn. f_equal. lia.
Qed.

(** [plain_loop] over white space before a closer *)
Lemma plain_ws L : forall m w n v lead s c r, List.length w <= m -> m < n -> in_doc s -> wsl w -> closer c ->
  rem s = w ++ c :: r -> 0 < depth (p_indent s) L ->
  exists v' k s', plain_loop n L true v lead s = (ROk v', s') /\ trim_end v' = trim_end v
    /\ k <= List.length w /\ moved L k s s'.
Proof.
  induction m as [m IH] using lt_wf_ind. intros w n v lead s c r Hm Hn H Hw Hc Er Hd.
  destruct n as [|n]; [lia|].
  (* tabs and form feeds *)
  assert (SP : exists t0 w', w = t0 ++ w' /\ forallb (not_in (plain_patt true)) t0 = true
               /\ match w' with [] => True | x :: _ => In x [32; 10; 13]%N end).
  { clear - Hw. induction w as [|x w IHw]; [exists [], []; auto|]. apply wsl_cons in Hw as [Hx Hw].
    apply ascii_ws_in in Hx. simpl in Hx.
    destruct (IHw Hw) as (t0 & w' & -> & A & B).
    destruct Hx as [<-|[<-|[<-|[<-|[<-|[]]]]]].
    - exists []. eexists. split; [reflexivity|]. split; [reflexivity|]. simpl. auto.
    - exists (9%N :: t0), w'. split; [reflexivity|]. split; [exact A|exact B].
    - exists []. eexists. split; [reflexivity|]. split; [reflexivity|]. simpl. auto.
    - exists (12%N :: t0), w'. split; [reflexivity|]. split; [exact A|exact B].
    - exists []. eexists. split; [reflexivity|]. split; [reflexivity|]. simpl. auto. }
  destruct SP as (t0 & w' & -> & Ht0 & Hh). apply wsl_app in Hw as [Hw0 Hw'].
  assert (A0 : forallb (fun b => N.ltb b 128) t0 = true) by now apply wsl_ascii.
  rewrite <- app_assoc in Er.
  assert (St : starts_in (plain_patt true) (w' ++ c :: r)).
  { destruct w' as [|x w']; cbn [app starts_in]; apply is_in_spec; rewrite in_patt.
    - destruct Hc as [<-|[<-|[<-|[]]]]; reflexivity.
    - destruct Hh as [<-|[<-|[<-|[]]]]; reflexivity. }
  assert (V0 : valid t0).
  { unfold valid. eapply forallb_impl; [|exact Hw0]. intros x Hx. apply ascii_ws_in in Hx. simpl in Hx.
    destruct Hx as [<-|[<-|[<-|[<-|[<-|[]]]]]]; reflexivity. }
  rewrite <- (encode_asciis t0 A0) in Er.
  destruct (plain_step n L true v lead s t0 _ H V0 Ht0 St Er) as (E1 & R1 & D1). rewrite E1.
  rewrite (encode_asciis t0 A0) in *. rewrite app_length in *.
  set (p := p_pos s + List.length t0) in *. pose proof (AT_at p s) as A1.
  assert (U0 : forallb is_uni_ws t0 = true).
  { eapply forallb_impl; [|exact Hw0]. intros x Hx. apply ascii_ws_in in Hx. simpl in Hx.
    destruct Hx as [<-|[<-|[<-|[<-|[<-|[]]]]]]; reflexivity. }
  destruct w' as [|x w'].
  { destruct (plain_rest_end n L true (v ++ t0) lead (at_pos p s) D1 A1) as (x & tb & EE & Hx & Htb).
    { right. right. split; [exact Hd|]. split; [reflexivity|]. exists c, r. split; [exact R1|].
      destruct Hc as [<-|[<-|[<-|[]]]]; simpl; auto 10. }
    exists ((v ++ t0) ++ x), (List.length t0). eexists. rewrite EE. split; [reflexivity|]. split; [|split; [lia|]].
    - rewrite <- app_assoc. apply trim_end_app. now rewrite forallb_app, U0, Hx.
    - exists tb, p. split; [reflexivity|]. exact Htb. }
  apply wsl_cons in Hw' as [Hx Hw']. cbn [app List.length] in *.
  assert (F : stop_f (rem (at_pos p s)) = false).
  { rewrite R1. destruct Hh as [<-|[<-|[<-|[]]]]; [|reflexivity|reflexivity].
    assert (exists y z, w' ++ c :: r = y :: z /\ y <> 35%N) as (y & z & -> & Hy).
    { destruct w' as [|y w']; [exists c, r; split; [reflexivity|]; now apply closer_not in Hc|].
      exists y, (w' ++ c :: r). split; [reflexivity|]. apply wsl_cons in Hw' as [Hy _]. intros ->. discriminate. }
    now apply stop_space. }
  destruct (plain_stop_exec (at_pos p s) D1 A1) as (q & Ep & Hp). rewrite (Hp F), set_pos_id in Ep.
  unfold plain_rest. rewrite (bind_ok _ _ _ _ _ Ep), F. unfold bind at 1, forward at 1, modify at 1.
  rewrite (set_eaten_AT _ A1). set (s1 := at_pos p s) in *.
  unfold bind at 1. rewrite (is_ok_eq _ _ _ (sym_set_exec (lit ": ") s1 D1)), R1.
  destruct (N.eqb_spec x 32) as [->|N32].
  - (* a space *)
    change (is_in (lit ": ") 32%N) with true. cbv iota beta.
    unfold bind at 1. rewrite (text_one s1 32%N (w' ++ c :: r) D1 A1 R1) by lia. cbv zeta.
    set (vv := (if lead && str_eqb [32%N] (lit " ") then trim_end (v ++ t0) else v ++ t0) ++ [32%N]).
    assert (Tv : trim_end vv = trim_end v).
    { unfold vv. rewrite trim_end_app by reflexivity.
      destruct (lead && _); rewrite ?trim_idem; apply trim_end_app; exact U0. }
    set (s2 := set_pos (p_pos s1 + 1) s1).
    assert (D2 : in_doc s2) by (apply in_doc_add; [rewrite R1; simpl; lia|exact D1]).
    assert (R2 : rem s2 = w' ++ c :: r) by (unfold s2; rewrite rem_add, R1; reflexivity).
    destruct (IH (List.length w') ltac:(lia) w' n vv lead s2 c r (le_n _) ltac:(lia) D2 Hw' Hc R2 Hd)
      as (v' & k & s' & EE & T & Hk & Hmv).
    exists v', (List.length t0 + 1 + k), s'. split; [exact EE|]. split; [congruence|]. split; [lia|].
    eapply moved_trans; [|exact Hmv]. exists (p_indent s), p. split; [|now left].
    unfold s2, s1, p, at_pos, set_pos, set_eaten, set_indent. cbn. f_equal. lia.
  - (* a line break *)
    assert (Hx2 : x = 10%N \/ x = 13%N) by (destruct Hh as [<-|[<-|[<-|[]]]]; [congruence|auto|auto]).
    replace (is_in (lit ": ") x) with false by (destruct Hx2 as [-> | ->]; reflexivity).
    replace (p_eaten s1) with (p_pos s1) by reflexivity. rewrite set_pos_id.
    cbn [negb andb]. unfold bind at 1, ret at 1. cbv iota beta.
    assert (S0 : sp_len (rem s1) = 0).
    { rewrite R1. unfold sp_len. apply span_zero. now apply N.eqb_neq. }
    unfold bind at 1. rewrite (ind_fail L s1 D1 A1) by (rewrite S0; exact Hd). cbv iota.
    set (s2 := set_indent (ind_norm L (p_indent s1)) s1).
    assert (D2 : in_doc s2) by exact D1. assert (R2 : rem s2 = (x :: w') ++ c :: r) by exact R1.
    assert (Wx : wsl (x :: w')) by (apply wsl_cons; auto).
    unfold bind at 1. rewrite (ok_eq _ _ _ (gap_exec true s2 D2)), R2.
    destruct (gap_f true ((x :: w') ++ c :: r)) as [[t k]|] eqn:G.
    + pose proof (gap_in _ _ _ _ _ Wx Hc G) as Lk. destruct (gap_f_le _ _ _ _ G) as (_ & K1 & T1).
      cbv zeta.
      set (vv := (if Nat.eqb t 1 then (v ++ t0) ++ [32%N] else v ++ t0) ++ repeat 10%N (t - 1)).
      assert (Tv : trim_end vv = trim_end v).
      { unfold vv. rewrite trim_end_app by (clear; induction (t - 1); [reflexivity|]; cbn; assumption).
        destruct (Nat.eqb t 1); rewrite ?(trim_end_app (v ++ t0)) by reflexivity; apply trim_end_app; exact U0. }
      set (s3 := set_pos (p_pos s2 + k) s2).
      assert (D3 : in_doc s3) by (apply in_doc_add; [rewrite R2, app_length; lia|exact D2]).
      assert (R3 : rem s3 = skipn k (x :: w') ++ c :: r).
      { unfold s3. rewrite rem_add, R2, skipn_app. replace (k - List.length (x :: w')) with 0 by lia. reflexivity. }
      assert (Dp : depth (p_indent s3) L = depth (p_indent s) L).
      { unfold s3, s2. cbn. now apply depth_norm. }
      unfold bind at 1. rewrite (is_err_eq _ _ _ (ind_exec L s3 D3)). rewrite ind_width_depth, Dp.
      unfold ind_table. replace (p_indent s3) with (ind_norm L (p_indent s)) by reflexivity. rewrite norm_idem.
      destruct (Nat.leb_spec (depth (p_indent s) L) (sp_len (rem s3))) as [Ls|Ls]; cbv iota beta zeta.
      * assert (Ls' : depth (p_indent s) L <= List.length (skipn k (x :: w'))).
        { rewrite R3 in Ls. pose proof (sp_in (skipn k (x :: w')) c r Hc). lia. }
        set (dd := depth (p_indent s) L) in *.
        match goal with |- context [plain_loop n L true vv true ?z] => set (s4 := z) end.
        assert (M4 : moved L (List.length t0 + k + dd) s s4).
        { exists (ind_norm L (p_indent s)), p. split; [|now right]. unfold s4, s3, s2, s1, p, at_pos, set_pos, set_eaten, set_indent. cbn.
          f_equal. lia. }
        assert (P4 : p_pos s4 = p_pos s3 + dd) by reflexivity.
        assert (R4 : rem s4 = skipn dd (skipn k (x :: w')) ++ c :: r).
        { change (rem s4) with (skipn (p_pos s3 + dd) (p_doc s)). rewrite <- skipn_add.
          change (skipn (p_pos s3) (p_doc s)) with (rem s3). rewrite R3, skipn_app. replace (dd - _) with 0 by lia. reflexivity. }
        assert (D4 : in_doc s4).
        { unfold in_doc. rewrite P4. change (p_doc s4) with (p_doc s3). pose proof (rem_length s3) as RL. rewrite R3, app_length in RL. cbn [List.length] in RL.
          unfold in_doc in D3. lia. }
        assert (W4 : wsl (skipn dd (skipn k (x :: w')))) by now apply wsl_skipn, wsl_skipn.
        assert (L4 : List.length (skipn dd (skipn k (x :: w'))) = S (List.length w') - k - dd) by now rewrite !skipn_length.
        destruct (IH (S (List.length w') - k - dd) ltac:(lia) _ n vv true s4 c r (Nat.eq_le_incl _ _ L4) ltac:(lia) D4 W4 Hc R4) as (v' & k' & s' & EE & T & Hk & Hmv).
        { destruct M4 as (tb & E & -> & Ht). cbn. rewrite (tb_ok_depth L (p_indent s) tb L (le_n _) Ht). exact Hd. }
        exists v', (List.length t0 + k + dd + k'), s'. split; [exact EE|]. split; [congruence|]. rewrite L4 in Hk. rewrite skipn_length in Ls'. cbn [List.length] in *. split; [lia|].
        eapply moved_trans; eassumption.
      * unfold ret. exists vv, (List.length t0 + 0). eexists. split; [reflexivity|]. split; [exact Tv|].
        split; [lia|]. exists (ind_norm L (p_indent s)), p. split; [|now right].
        unfold s3, s2, s1, p, at_pos, set_pos, set_eaten, set_indent. cbn. f_equal. lia.
    + exists (v ++ t0), (List.length t0). unfold ret. eexists. split; [reflexivity|]. split; [apply trim_end_app; exact U0|].
      split; [lia|]. exists (ind_norm L (p_indent s)), p. split; [|now right].
      unfold s2, s1, p, gap_head. change ((x :: w') ++ c :: r) with ((x :: w') ++ c :: r).
      rewrite (comment_none (x :: w') c r Wx Hc). unfold at_pos, set_pos, set_eaten, set_indent. cbn. f_equal. lia.
Qed.
