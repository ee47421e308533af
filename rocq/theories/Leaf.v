(** * How the loader reads one scalar: plain text, quoted strings, numbers.
    Execution lemmas used by C10, C33, C34 and others. *)
From Verif Require Export PropQuoted PropNum PropFloat2.
Open Scope nat_scope.

(** ** The loop of [string_plain] *)
Definition is_stop (fd : bytes) : M bool := ret (match fd with [] => true | _ => false end).
Definition plain_stop : M bool :=
  orM (fd <- food ;; is_stop fd)
      (orM (is_ok (sym_seq (lit ": ")))
      (orM (andM (is_ok (sym (chr ":"))) (is_ok nl))
           (is_ok (sym_seq (lit " #"))))).
Definition plain_rest (n level : nat) (inner : bool) (v : str) (is_leading : bool) : M str :=
    stop <- plain_stop ;;
    if (stop : bool) then backward ;;; ret v
    else
      forward ;;;
      b <- is_ok (sym_set (lit ": ")) ;;
      if (b : bool) then
        tx <- text ;;
        let v := if is_leading && str_eqb tx (lit " ") then trim_end v else v in
        plain_loop n level inner (v ++ tx) is_leading
      else
        b <- (if negb inner && negb (match v with [] => true | _ => false end)
              then is_ok (sym_set (lit "{}[]")) else ret false) ;;
        if (b : bool) then
          tx <- text ;;
          plain_loop n level inner (v ++ tx) false
        else
          e <- is_err (ind level) ;;
          if (e : bool) then
            g <- ok (gap true) ;;
            match g with
            | Some t =>
              let v := (if Nat.eqb t 1 then v ++ [32%N] else v) ++ repeat 10%N (t - 1)%nat in
              e <- is_err (ind level) ;;
              if (e : bool) then ret v else plain_loop n level inner v true
            | None => ret v
            end
          else plain_loop n level inner v is_leading.

Lemma plain_patt_ascii inner : asciis (plain_patt inner).
Proof. destruct inner; reflexivity. Qed.
Lemma plain_step n L inner v lead s t tl : in_doc s -> valid t ->
  forallb (not_in (plain_patt inner)) t = true -> starts_in (plain_patt inner) tl ->
  rem s = utf8_encode t ++ tl ->
  let s1 := at_pos (p_pos s + List.length (utf8_encode t)) s in
  plain_loop (S n) L inner v lead s = plain_rest n L inner (v ++ t) lead s1 /\ rem s1 = tl /\ in_doc s1.
Proof.
  intros H Hv Ht Hs Er s1.
  destruct (read_run _ t tl s H (plain_patt_ascii inner) Hv Ht Hs Er) as (E & R1 & D1). split; [|now split].
  fold s1 in E, R1, D1. cbn [plain_loop]. unfold plain_rest, plain_stop, is_stop. revert E. unfold bind at 1 2 3 4 5 6 7 8, ret.
  destruct (forward s) as [[u|e| |] s2]; try discriminate.
  destruct (take_while _ _ s2) as [[u2|e| |] s3]; try discriminate.
  destruct (text s3) as [[x|e| |] s4]; try discriminate.
  destruct (forward s4) as [[u3|e| |] s5]; try discriminate. intros [= -> ->]. reflexivity.
Qed.
Definition stop_f (l : bytes) : bool :=
  match l with [] => true | _ => false end
  || starts_with (lit ": ") l
  || (starts_with [58%N] l && negb (Nat.eqb (nl_len (skipn 1 l)) 0))
  || starts_with (lit " #") l.
Lemma plain_stop_exec s : in_doc s -> AT s ->
  exists p, plain_stop s = (ROk (stop_f (rem s)), set_pos p s) /\ (stop_f (rem s) = false -> p = p_pos s).
Proof.
  intros H A. unfold plain_stop, orM at 1. unfold bind at 1. unfold bind at 1.
  rewrite (food_exec s H). unfold is_stop, ret at 1. unfold stop_f.
  destruct (rem s) as [|x r] eqn:R; [exists (p_pos s); split; [unfold ret; now rewrite set_pos_id|auto]|].
  cbn [orb]. unfold orM at 1. unfold bind at 1.
  destruct (starts_with (lit ": ") (x :: r)) eqn:E1.
  { rewrite (seq_yes _ _ H) by (rewrite R; exact E1). eexists. split; [reflexivity|discriminate]. }
  rewrite (seq_no _ _ H A) by (rewrite R; exact E1). cbn [orb].
  unfold orM at 1, andM. unfold bind at 1. unfold bind at 1.
  rewrite (is_ok_eq _ _ _ (sym_exec (chr ":") s H)), R. change (chr ":") with 58%N.
  change (starts_with [58%N] (x :: r)) with ((58 =? x)%N && true). rewrite andb_true_r. rewrite (N.eqb_sym 58 x).
  destruct (N.eqb_spec x 58) as [->|Hx].
  - set (s1 := set_pos (p_pos s + 1) s).
    assert (H1 : in_doc s1) by (apply in_doc_add; [rewrite R; simpl; lia|exact H]).
    assert (R1 : rem s1 = r) by (unfold s1; rewrite rem_add, R; reflexivity).
    rewrite (is_ok_eq _ _ _ (nl_exec s1 H1)), R1. cbn [skipn andb].
    destruct (Nat.eqb (nl_len r) 0) eqn:En; cbn [negb orb].
    + cbv iota beta. unfold at_pos.
      match goal with |- context [is_ok (sym_seq (lit " #")) ?z] => set (s2 := z) end.
      assert (H2 : in_doc s2) by exact H1.
      rewrite (is_ok_eq _ _ _ (sym_seq_exec (lit " #") s2 H2)).
      replace (starts_with (lit " #") (rem s2)) with false.
      2:{ assert (R2 : rem s2 = r) by exact R1. rewrite R2. destruct r as [|y r]; [reflexivity|].
          cbn in E1 |- *. destruct y as [|y]; [reflexivity|]. rewrite andb_true_r in E1. rewrite E1. reflexivity. }
      exists (p_pos s). split; [|auto]. f_equal. unfold s2, s1. cbn [p_eaten set_pos]. now rewrite A.
    + unfold ret. eexists. split; [reflexivity|discriminate].
  - cbv iota beta. cbn [andb orb]. unfold ret at 1. cbv iota beta.
    rewrite A, set_pos_id.
    destruct (starts_with (lit " #") (x :: r)) eqn:E2.
    + rewrite (seq_yes _ _ H) by (rewrite R; exact E2). eexists. split; [reflexivity|discriminate].
    + rewrite (seq_no _ _ H A) by (rewrite R; exact E2). exists (p_pos s). split; [now rewrite set_pos_id|auto].
Qed.

(** the cases at a byte of the pattern set *)
Lemma plain_rest_stop n L inner v lead s : in_doc s -> AT s -> stop_f (rem s) = true ->
  plain_rest n L inner v lead s = (ROk v, s).
Proof.
  intros H A E. unfold plain_rest. destruct (plain_stop_exec s H A) as (p & Ep & _).
  rewrite (bind_ok _ _ _ _ _ Ep), E. unfold bind, backward, modify, ret. f_equal.
  cbn [p_eaten set_pos]. now rewrite set_pos_pos, A, set_pos_id.
Qed.
Lemma set_eaten_AT s : AT s -> set_eaten (p_pos s) s = s.
Proof. intros A. rewrite <- A. apply set_eaten_id. Qed.
Lemma sym_set_exec l s : in_doc s ->
  sym_set l s = match rem s with
                | x :: _ => if is_in l x then (ROk tt, set_pos (p_pos s + 1) s)
                            else (RErr Mismatch, set_pos (p_eaten s) s)
                | [] => (RErr Mismatch, set_pos (p_eaten s) s)
                end.
Proof. intros H. unfold sym_set. now rewrite one_exec. Qed.
Lemma text_one s x r : in_doc s -> AT s -> rem s = x :: r -> (x < 128)%N ->
  text (set_pos (p_pos s + 1) s) = (ROk [x], set_pos (p_pos s + 1) s).
Proof.
  intros H A R Hx.
  assert (H1 : in_doc (set_pos (p_pos s + 1) s)) by (apply in_doc_add; [rewrite R; simpl; lia|exact H]).
  rewrite (text_exec _ H1). cbn [p_eaten p_pos p_doc set_pos]. rewrite (slice_rem s 1 A), R. cbn [firstn].
  rewrite utf8_lossy_ascii; [reflexivity|]. cbn. now rewrite (proj2 (N.ltb_lt _ _) Hx).
Qed.
Lemma plain_rest_colon n L inner v s x r : in_doc s -> AT s -> rem s = x :: r -> x = 58%N \/ x = 32%N ->
  stop_f (rem s) = false ->
  plain_rest n L inner v false s = plain_loop n L inner (v ++ [x]) false (set_pos (p_pos s + 1) s).
Proof.
  intros H A R Hx E. unfold plain_rest. destruct (plain_stop_exec s H A) as (p & Ep & Hp).
  rewrite (Hp E), set_pos_id in Ep.
  rewrite (bind_ok _ _ _ _ _ Ep), E. unfold bind at 1, forward, modify. rewrite (set_eaten_AT s A).
  unfold bind at 1. rewrite (is_ok_eq _ _ _ (sym_set_exec (lit ": ") s H)), R.
  replace (is_in (lit ": ") x) with true by (destruct Hx as [-> | ->]; reflexivity).
  unfold bind. rewrite (text_one s x r H A R) by (destruct Hx; lia). reflexivity.
Qed.
Lemma plain_rest_bracket n L v s x r : in_doc s -> AT s -> rem s = x :: r -> In x (lit "{}[]") -> v <> [] ->
  plain_rest n L false v false s = plain_loop n L false (v ++ [x]) false (set_pos (p_pos s + 1) s).
Proof.
  intros H A R Hx Hv. unfold plain_rest. destruct (plain_stop_exec s H A) as (p & Ep & Hp).
  assert (E : stop_f (rem s) = false).
  { rewrite R. simpl in Hx. repeat (destruct Hx as [<-|Hx]; [reflexivity|]). destruct Hx. }
  rewrite (Hp E), set_pos_id in Ep.
  rewrite (bind_ok _ _ _ _ _ Ep), E. unfold bind at 1, forward, modify. rewrite (set_eaten_AT s A).
  unfold bind at 1. rewrite (is_ok_eq _ _ _ (sym_set_exec (lit ": ") s H)), R.
  replace (is_in (lit ": ") x) with false by (simpl in Hx; repeat (destruct Hx as [<-|Hx]; [reflexivity|]); destruct Hx).
  rewrite A, set_pos_id. destruct v as [|v0 v]; [congruence|]. cbn [negb andb].
  unfold bind at 1. rewrite (is_ok_eq _ _ _ (sym_set_exec (lit "{}[]") s H)), R.
  replace (is_in (lit "{}[]") x) with true by (symmetry; now apply is_in_spec).
  unfold bind. rewrite (text_one s x r H A R); [reflexivity|].
  simpl in Hx. repeat (destruct Hx as [<-|Hx]; [lia|]). destruct Hx.
Qed.

(** the end of the scalar: another line, or a flow indicator *)
Definition ends (inner : bool) (w : nat) (l : bytes) : Prop :=
  stop_f l = true
  \/ (0 < w /\ nl_len l <> 0 /\ (exists g k, gap_f true l = Some (g, k) /\ sp_len (skipn k l) < w))
  \/ (0 < w /\ inner = true /\ exists c r, l = c :: r /\ In c (lit "[]{},")).
Lemma comment_head x r : x = 10%N \/ x = 13%N \/ In x (lit "[]{},") -> comment_len (x :: r) = 0.
Proof.
  intros H. unfold comment_len, ws_len.
  simpl in H. repeat (destruct H as [->|H] || destruct H as [<-|H]); try reflexivity; try destruct H; reflexivity.
Qed.
Lemma ind_fail L s : in_doc s -> AT s -> sp_len (rem s) < depth (p_indent s) L ->
  is_err (ind L) s = (ROk true, set_indent (ind_norm L (p_indent s)) s).
Proof.
  intros H A Hs. rewrite (is_err_eq _ _ _ (ind_exec L s H)). rewrite ind_width_depth.
  rewrite (proj2 (Nat.leb_gt _ _) Hs). rewrite A. unfold ind_table. f_equal. Qed.
Lemma plain_rest_end n L inner v lead s : in_doc s -> AT s -> ends inner (depth (p_indent s) L) (rem s) ->
  exists x tb, plain_rest n L inner v lead s = (ROk (v ++ x), set_indent tb s)
    /\ forallb is_uni_ws x = true /\ (tb = p_indent s \/ tb = ind_norm L (p_indent s)).
Proof.
  intros H A [E|E].
  { exists [], (p_indent s). rewrite (plain_rest_stop n L inner v lead s H A E), app_nil_r, set_indent_id. auto. }
  destruct (plain_stop_exec s H A) as (p & Ep & Hp).
  assert (W : 0 < depth (p_indent s) L) by (destruct E as [E|E]; tauto).
  assert (F : stop_f (rem s) = true \/ exists c r, rem s = c :: r /\ stop_f (rem s) = false
            /\ is_in (lit ": ") c = false /\ (negb inner && negb (is_nil v) = false \/ is_in (lit "{}[]") c = false) /\ c <> 32%N
            /\ (ok (gap true) (set_indent (ind_norm L (p_indent s)) s)
                 = (ROk None, set_indent (ind_norm L (p_indent s)) s)
                 \/ exists g k, gap_f true (rem s) = Some (g, k) /\ sp_len (skipn k (rem s)) < depth (p_indent s) L)).
  { right. destruct E as [(_ & E1 & g & k & Eg & Es)|(_ & -> & c & r & Ec & Hc)].
    - destruct (rem s) as [|c r] eqn:R; [destruct (E1 eq_refl)|].
      assert (Hc : c = 10%N \/ c = 13%N).
      { rewrite nl_len_alt in E1. unfold nl_len' in E1. cbn [starts_with] in E1.
        destruct (N.eqb_spec 13 c); [auto|]. destruct (N.eqb_spec 10 c); [auto|]. cbn in E1.
        destruct (N.eqb_spec c 10); [auto|]. destruct (N.eqb_spec c 13); [auto|]. destruct (E1 eq_refl). }
      exists c, r. split; [reflexivity|].
      split; [destruct Hc as [-> | ->]; reflexivity|]. split; [destruct Hc as [-> | ->]; reflexivity|].
      split; [right; destruct Hc as [-> | ->]; reflexivity|]. split; [destruct Hc; lia|]. right. eauto.
    - exists c, r. split; [exact Ec|]. rewrite Ec.
      split; [simpl in Hc; repeat (destruct Hc as [<-|Hc]; [reflexivity|]); destruct Hc|].
      split; [simpl in Hc; repeat (destruct Hc as [<-|Hc]; [reflexivity|]); destruct Hc|].
      split; [left; reflexivity|].
      split; [simpl in Hc; repeat (destruct Hc as [<-|Hc]; [lia|]); destruct Hc|]. left.
      set (s1 := set_indent _ s). assert (H1 : in_doc s1) by exact H.
      rewrite (ok_eq _ _ _ (gap_exec true s1 H1)). change (rem s1) with (rem s). rewrite Ec.
      unfold gap_f. cbv zeta. unfold gap_head. rewrite comment_head by auto. cbn [skipn].
      replace (nl_len (c :: r)) with 0.
      2:{ rewrite nl_len_alt. unfold nl_len'. simpl in Hc. repeat (destruct Hc as [<-|Hc]; [reflexivity|]). destruct Hc. }
      cbn [Nat.eqb]. now rewrite Nat.add_0_r, set_pos_id. }
  destruct F as [F|(c & r & R & F & Hc1 & Hc2 & Hc3 & G)].
  { exists [], (p_indent s). rewrite (plain_rest_stop n L inner v lead s H A F), app_nil_r, set_indent_id. auto. }
  rewrite (Hp F), set_pos_id in Ep.
  assert (S0 : sp_len (rem s) = 0).
  { unfold sp_len. rewrite R. apply span_zero. apply N.eqb_neq. exact Hc3. }
  assert (K : exists x, plain_rest n L inner v lead s = (ROk (v ++ x), set_indent (ind_norm L (p_indent s)) s)
                        /\ forallb is_uni_ws x = true).
  { unfold plain_rest.
    rewrite (bind_ok _ _ _ _ _ Ep), F. unfold bind at 1, forward, modify. rewrite (set_eaten_AT s A).
    unfold bind at 1. rewrite (is_ok_eq _ _ _ (sym_set_exec (lit ": ") s H)), R, Hc1.
    rewrite A, set_pos_id.
    assert (K1 : (if negb inner && negb (match v with [] => true | _ :: _ => false end)
                  then is_ok (sym_set (lit "{}[]")) else ret false) s = (ROk false, s)).
    { destruct Hc2 as [Hc2|Hc2].
      - change (match v with [] => true | _ :: _ => false end) with (is_nil v). rewrite Hc2. reflexivity.
      - destruct (negb inner && _); [|reflexivity].
        rewrite (is_ok_eq _ _ _ (sym_set_exec (lit "{}[]") s H)), R, Hc2. now rewrite A, set_pos_id. }
    rewrite (bind_ok _ _ _ _ _ K1). cbv iota. unfold bind at 1. rewrite (ind_fail L s H A) by lia. cbv iota.
    set (s1 := set_indent _ s) in *. assert (H1 : in_doc s1) by exact H. assert (A1 : AT s1) by exact A.
    destruct G as [G|(g & k & Eg & Es)].
    - unfold bind. rewrite G. exists []. rewrite app_nil_r. split; reflexivity.
    - unfold bind at 1. rewrite (ok_eq _ _ _ (gap_exec true s1 H1)). change (rem s1) with (rem s). rewrite Eg.
      cbv zeta. unfold bind.
      destruct (gap_f_le _ _ _ _ Eg) as (Lk & _).
      assert (H2 : in_doc (set_pos (p_pos s1 + k) s1)) by (apply in_doc_add; assumption).
      rewrite (is_err_eq _ _ _ (ind_exec L _ H2)). rewrite ind_width_depth, rem_add.
      change (rem s1) with (rem s). cbn [p_indent set_pos].
      assert (D : depth (p_indent s1) L = depth (p_indent s) L).
      { unfold s1. cbn. apply depth_ext. intros i Hi. now apply ind_norm_width. }
      rewrite D, (proj2 (Nat.leb_gt _ _) Es). unfold ret.
      exists ((if Nat.eqb g 1 then [32%N] else []) ++ repeat 10%N (g - 1)). split.
      + f_equal.
        * f_equal. destruct (Nat.eqb g 1); [now rewrite <- app_assoc|reflexivity].
        * unfold ind_table. cbn [p_indent p_eaten set_pos]. unfold s1. cbn [p_indent set_indent].
          assert (T : ind_norm L (ind_norm L (p_indent s)) = ind_norm L (p_indent s)).
          { unfold ind_norm at 1. rewrite ind_norm_length. rewrite (proj2 (Nat.leb_gt (L + 1) L)) by lia.
            apply firstn_all2. rewrite ind_norm_length. lia. }
          rewrite T. unfold set_pos, set_indent. cbn. rewrite A. reflexivity.
      + rewrite forallb_app. apply andb_true_iff. split; [destruct (Nat.eqb g 1); reflexivity|].
        clear. induction (g - 1); [reflexivity|]. cbn. exact IHn. }
  destruct K as (x & K1 & K2). exists x, (ind_norm L (p_indent s)). auto.
Qed.

(** ** Plain text *)

(** Characters of a plain scalar on one line: no line break; a colon is
    followed by something other than a space; no [ #]; flow indicators not at
    the start, and not at all inside a flow collection. *)
Fixpoint plainb (inner first : bool) (t : str) : bool :=
  match t with
  | [] => true
  | c :: r =>
    (if is_in [10; 13]%N c then false
     else if is_in (lit "[]{}") c then negb inner && negb first
     else if N.eqb c 44 then negb inner
     else if N.eqb c 58 then match r with [] => false | d :: _ => not_in [32; 10; 13]%N d end
     else if N.eqb c 32 then match r with [] => false | d :: _ => negb (N.eqb d 35) end
     else true) && plainb inner false r
  end.
Lemma in_patt inner c : is_in (plain_patt inner) c
  = is_in [10; 13]%N c || is_in (lit "[]{}") c || (inner && N.eqb c 44) || N.eqb c 58 || N.eqb c 32.
Proof.
  assert (E : plain_patt inner = [91; 93; 123; 125; 58; 32; 10; 13]%N ++ (if inner then [44%N] else [])) by reflexivity.
  rewrite E. change (lit "[]{}") with [91; 93; 123; 125]%N. clear E.
  destruct inner; cbn [app andb]; rewrite !is_in_cons; unfold is_in, not_in, negb;
    repeat match goal with |- context [(c =? ?x)%N] => generalize (c =? x)%N; intros [] end; reflexivity.
Qed.
Lemma not_in_is l c : not_in l c = negb (is_in l c).
Proof. unfold is_in. now rewrite negb_involutive. Qed.
Lemma plainb_first inner t : plainb inner true t = true -> plainb inner false t = true.
Proof.
  destruct t as [|c t]; [auto|]. cbn [plainb]. destruct (is_in [10; 13]%N c); [auto|].
  destruct (is_in (lit "[]{}") c); [|auto]. cbn [negb]. rewrite andb_false_r. discriminate.
Qed.
Lemma plain_split inner first t : plainb inner first t = true -> exists t0 t', t = t0 ++ t'
  /\ forallb (not_in (plain_patt inner)) t0 = true
  /\ (t' = [] \/ exists c r, t' = c :: r /\ is_in (plain_patt inner) c = true
      /\ plainb inner (first && is_nil t0) t' = true).
Proof.
  revert first; induction t as [|c t IH]; intros first H; [exists [], []; auto|].
  destruct (is_in (plain_patt inner) c) eqn:Ec.
  { exists [], (c :: t). split; [reflexivity|]. split; [reflexivity|]. right. exists c, t. cbn [is_nil].
    rewrite andb_true_r. auto. }
  assert (H' : plainb inner false t = true) by (cbn [plainb] in H; now apply andb_true_iff in H as [_ H]).
  destruct (IH false H') as (t0 & t' & -> & Ht0 & Ht'). exists (c :: t0), t'. split; [reflexivity|].
  split; [cbn [forallb]; rewrite Ht0, not_in_is, Ec; reflexivity|]. cbn [is_nil]. rewrite andb_false_r. exact Ht'.
Qed.
Lemma ends_patt inner w l : ends inner w l -> starts_in (plain_patt inner) l.
Proof.
  intros E. destruct l as [|c l]; [exact Logic.I|]. change (In c (plain_patt inner)). apply is_in_spec. rewrite in_patt.
  destruct E as [E|[(_ & E & _)|(_ & -> & c' & r & [= <- _] & Hc)]].
  - unfold stop_f in E. cbn [orb] in E. apply orb_true_iff in E as [E|E]; [apply orb_true_iff in E as [E|E]|].
    + apply starts_with_app in E as (r & E). injection E as -> _. rewrite !orb_true_r. reflexivity.
    + apply andb_true_iff in E as [E _]. apply starts_with_app in E as (r & E). injection E as -> _. now rewrite !orb_true_r.
    + apply starts_with_app in E as (r & E). injection E as -> _. now rewrite !orb_true_r.
  - assert (Hc : c = 10%N \/ c = 13%N).
    { rewrite nl_len_alt in E. unfold nl_len' in E. cbn [starts_with] in E.
      destruct (N.eqb_spec 13 c); [auto|]. destruct (N.eqb_spec 10 c); [auto|]. cbn in E.
      destruct (N.eqb_spec c 10); [auto|]. destruct (N.eqb_spec c 13); [auto|]. destruct (E eq_refl). }
    destruct Hc as [-> | ->]; reflexivity.
  - simpl in Hc. repeat (destruct Hc as [<-|Hc]; [reflexivity|]). destruct Hc.
Qed.
Lemma encode_next t rest b r' : utf8_encode t ++ rest = b :: r' -> t <> [] ->
  (b < 128)%N -> exists c t', t = c :: t' /\ c = b.
Proof.
  intros E Ht Hb. destruct t as [|c t]; [congruence|]. exists c, t. split; [reflexivity|].
  rewrite encode_cons in E. destruct (N.lt_ge_cases c 128) as [L|L].
  - rewrite encode_ascii in E by exact L. now injection E.
  - destruct (encode_char c) as [|b' r] eqn:K; [destruct (encode_head c []) as (b' & r & K' & _); rewrite K in K'; discriminate|].
    injection E as -> _. assert (128 <= b)%N by (apply (encode_multi c); [exact L|rewrite K; now left]). lia.
Qed.
(** the byte after an ASCII character of the text *)
Lemma next_not t rest l : t <> [] -> asciis l -> (match t with d :: _ => not_in l d = true | [] => True end) ->
  exists b r, utf8_encode t ++ rest = b :: r /\ not_in l b = true.
Proof.
  intros Ht Hl Hd. destruct t as [|c t]; [congruence|]. rewrite encode_cons.
  destruct (encode_char c) as [|b r] eqn:K; [destruct (encode_head c []) as (b' & r & K' & _); rewrite K in K'; discriminate|].
  exists b, (r ++ utf8_encode t ++ rest). split; [simpl; now rewrite <- app_assoc|].
  destruct (N.lt_ge_cases c 128) as [L|L].
  - rewrite encode_ascii in K by exact L. now injection K as -> _.
  - apply multi_not_in; [now apply asciis_Forall|]. apply (encode_multi c); [exact L|rewrite K; now left].
Qed.
Lemma stop_colon b r : not_in [32; 10; 13]%N b = true -> stop_f (58%N :: b :: r) = false.
Proof.
  intros H. apply not_in_spec in H. unfold stop_f. cbn [orb skipn starts_with].
  assert (E : nl_len (b :: r) = 0).
  { rewrite nl_len_alt. unfold nl_len'. cbn [starts_with]. simpl in H.
    rewrite (proj2 (N.eqb_neq 13 b)), (proj2 (N.eqb_neq 10 b)) by (intros <-; tauto).
    rewrite (proj2 (N.eqb_neq b 10)), (proj2 (N.eqb_neq b 13)) by (intros ->; tauto). reflexivity. }
  rewrite E. cbn. destruct b as [|p]; [reflexivity|]. simpl in H.
  destruct (Pos.eqb_spec 32 p) as [<-|]; [exfalso; tauto|reflexivity].
Qed.
Lemma stop_space b r : b <> 35%N -> stop_f (32%N :: b :: r) = false.
Proof.
  intros H. unfold stop_f. cbn. destruct b as [|p]; [reflexivity|].
  destruct (Pos.eqb_spec 35 p) as [<-|]; [congruence|reflexivity].
Qed.

Lemma plain_run L inner rest : forall m t n v s, List.length t <= m -> m < n -> in_doc s -> valid t ->
  plainb inner (is_nil v) t = true -> rem s = utf8_encode t ++ rest -> ends inner (depth (p_indent s) L) rest ->
  exists x tb E, plain_loop n L inner v false s
    = (ROk (v ++ t ++ x), set_pos (p_pos s + List.length (utf8_encode t)) (set_eaten E (set_indent tb s)))
    /\ forallb is_uni_ws x = true /\ (tb = p_indent s \/ tb = ind_norm L (p_indent s)).
Proof.
  induction m as [m IH] using lt_wf_ind. intros t n v s Hm Hn H Hv Hp Er He.
  destruct n as [|n]; [lia|].
  destruct (plain_split _ _ _ Hp) as (t0 & t' & -> & Ht0 & Ht').
  apply valid_app in Hv as [Hv0 Hv']. rewrite encode_app, <- app_assoc in Er.
  assert (Hs : starts_in (plain_patt inner) (utf8_encode t' ++ rest)).
  { destruct Ht' as [-> |(c & r & -> & Hc & _)]; [exact (ends_patt _ _ _ He)|].
    rewrite encode_cons, encode_ascii; [change (In c (plain_patt inner)); now apply is_in_spec|].
    apply is_in_spec in Hc. exact (proj1 (Forall_forall _ _) (asciis_Forall _ (plain_patt_ascii inner)) c Hc). }
  destruct (plain_step n L inner v false s t0 _ H Hv0 Ht0 Hs Er) as (E1 & R1 & D1).
  rewrite E1, encode_app, app_length. rewrite app_length in Hm.
  set (p := p_pos s + List.length (utf8_encode t0)) in *. pose proof (AT_at p s) as A1.
  replace (p_pos s + (List.length (utf8_encode t0) + List.length (utf8_encode t'))) with (p + List.length (utf8_encode t')) by (unfold p; lia).
  destruct Ht' as [-> |(c & r & -> & Hc & Hp')].
  - destruct (plain_rest_end n L inner (v ++ t0) false (at_pos p s) D1 A1) as (x & tb & EE & Hx & Htb).
    { rewrite R1. exact He. }
    exists x, tb, p. rewrite EE. split; [|auto]. rewrite app_nil_r, <- app_assoc. f_equal.
    unfold at_pos, set_pos, set_eaten, set_indent. cbn. f_equal; lia.
  - rewrite in_patt in Hc. cbn [plainb] in Hp'. apply andb_true_iff in Hp' as [Hp1 Hp2].
    assert (Hv1 : valid r) by now apply valid_cons in Hv' as [_ ?].
    assert (Hlen : List.length (utf8_encode (c :: r)) = S (List.length (utf8_encode r)) ->
      forall n' v', v' = (v ++ t0) ++ [c] -> n' = n ->
      rem (at_pos p s) = c :: utf8_encode r ++ rest ->
      exists x tb E, plain_loop n' L inner v' false (set_pos (p_pos (at_pos p s) + 1) (at_pos p s))
        = (ROk (v ++ (t0 ++ c :: r) ++ x), set_pos (p + List.length (utf8_encode (c :: r))) (set_eaten E (set_indent tb s)))
        /\ forallb is_uni_ws x = true /\ (tb = p_indent s \/ tb = ind_norm L (p_indent s))).
    { intros HL n' v' -> -> R2.
      destruct (IH (List.length r) ltac:(simpl in Hm; lia) r n ((v ++ t0) ++ [c]) (set_pos (p_pos (at_pos p s) + 1) (at_pos p s)))
        as (x & tb & E & EE & Hx & Htb).
      - apply le_n.
      - simpl in Hm; lia.
      - apply in_doc_add; [rewrite R2; simpl; lia|exact D1].
      - exact Hv1.
      - replace (is_nil ((v ++ t0) ++ [c])) with false by (destruct (v ++ t0); reflexivity). exact Hp2.
      - rewrite rem_add, R2. reflexivity.
      - exact He.
      - exists x, tb, E. rewrite EE. split; [|auto]. rewrite HL. f_equal; [|].
        + f_equal. rewrite <- !app_assoc. reflexivity.
        + unfold at_pos, set_pos, set_eaten, set_indent. cbn. f_equal; lia. }
    assert (Hc128 : (c < 128)%N).
    { apply (proj1 (Forall_forall _ _) (asciis_Forall _ (plain_patt_ascii inner)) c). apply is_in_spec. rewrite in_patt. exact Hc. }
    rewrite encode_cons_ascii in R1 by exact Hc128. cbn [app] in R1.
    specialize (Hlen (encode_len_cons c r Hc128)).
    destruct (is_in [10; 13]%N c) eqn:B1; [discriminate|].
    destruct (is_in (lit "[]{}") c) eqn:B2.
    { apply andb_true_iff in Hp1 as [I1 I2]. destruct inner; [discriminate|].
      rewrite (plain_rest_bracket n L (v ++ t0) _ c _ D1 A1 R1).
      - exact (Hlen _ _ eq_refl eq_refl R1).
      - apply is_in_spec in B2. simpl in *. tauto.
      - destruct v, t0; try discriminate. }
    cbn [orb] in Hc. destruct (N.eqb_spec c 44) as [->|N44].
    { destruct inner; [discriminate|]. discriminate. }
    rewrite andb_false_r in Hc. cbn [orb] in Hc.
    destruct (N.eqb_spec c 58) as [->|N58].
    { destruct r as [|d r]; [discriminate|].
      destruct (next_not (d :: r) rest [32; 10; 13]%N ltac:(discriminate) ltac:(reflexivity) Hp1) as (b & r' & Eb & Hb).
      rewrite (plain_rest_colon n L inner (v ++ t0) _ 58%N _ D1 A1 R1).
      - exact (Hlen _ _ eq_refl eq_refl R1).
      - auto.
      - rewrite R1, Eb. now apply stop_colon. }
    cbn [orb] in Hc. apply N.eqb_eq in Hc. subst c. cbn in Hp1.
    destruct r as [|d r]; [discriminate|].
    destruct (next_not (d :: r) rest [35]%N ltac:(discriminate) ltac:(reflexivity)) as (b & r' & Eb & Hb).
    { apply not_in_spec. intros [<-|[]]. discriminate. }
    rewrite (plain_rest_colon n L inner (v ++ t0) _ 32%N _ D1 A1 R1).
    + exact (Hlen _ _ eq_refl eq_refl R1).
    + auto.
    + rewrite R1, Eb. apply stop_space. apply not_in_spec in Hb. intros ->. apply Hb. now left.
Qed.

Lemma trim_end_ws x : forallb is_uni_ws x = true -> trim_end x = [].
Proof.
  induction x as [|c x IH]; [reflexivity|]. cbn. intros H. apply andb_true_iff in H as [H1 H2].
  now rewrite (IH H2), H1.
Qed.
Lemma trim_end_app t x : forallb is_uni_ws x = true -> trim_end (t ++ x) = trim_end t.
Proof.
  intros H. induction t as [|c t IH]; [now apply trim_end_ws|]. cbn [app trim_end]. now rewrite IH.
Qed.
(** The result of reading a leaf: the text is behind the cursor, and the
    indentation table was at most cut or filled up to the level. *)
Definition after (L k : nat) (s s' : st) : Prop :=
  exists tb, s' = set_pos (p_pos s + k) (set_indent tb s) /\ (tb = p_indent s \/ tb = ind_norm L (p_indent s)).
Lemma string_plain_exec L inner s t rest : in_doc s -> valid t -> t <> [] -> trim_end t = t ->
  plainb inner true t = true -> rem s = utf8_encode t ++ rest -> ends inner (depth (p_indent s) L) rest ->
  exists s', string_plain L inner s = (ROk t, s') /\ after L (List.length (utf8_encode t)) s s'.
Proof.
  intros H Hv Hn Ht Hp Er He. unfold string_plain, context. set (s0 := set_eaten (p_pos s) s).
  unfold bind, gets.
  assert (Ln : List.length t < loop_fuel s0).
  { unfold loop_fuel. pose proof (rem_length s) as RL. rewrite Er, app_length in RL.
    pose proof (encode_length t). cbn. lia. }
  destruct (plain_run L inner rest (List.length t) t (loop_fuel s0) [] s0 (le_n _) Ln H Hv Hp Er He) as (x & tb & E & -> & Hx & Htb).
  cbn [app]. rewrite (trim_end_app t x Hx), Ht. destruct t as [|c t]; [congruence|].
  unfold ret. eexists. split; [reflexivity|]. exists tb. split; [|exact Htb].
  unfold s0, set_pos, set_eaten, set_indent. destruct s; reflexivity.
Qed.

(** ** Sub-parsers that refuse the head of the text *)
Lemma miss {A} c (k : unit -> M A) s : in_doc s -> AT s -> (match rem s with x :: _ => x <> c | [] => True end) ->
  bind (sym c) k s = (RErr Mismatch, s).
Proof.
  intros H A0 Hx. unfold bind. rewrite (sym_exec c s H). destruct (rem s) as [|x r].
  - now rewrite A0, set_pos_id.
  - rewrite (proj2 (N.eqb_neq x c) Hx). now rewrite A0, set_pos_id.
Qed.
Lemma ok_miss {A} c (k : unit -> M A) s : in_doc s -> AT s -> (match rem s with x :: _ => x <> c | [] => True end) ->
  ok (bind (sym c) k) s = (ROk None, s).
Proof. intros H A0 Hx. now rewrite (ok_eq _ _ _ (miss c k s H A0 Hx)). Qed.
Lemma bind_assoc' {A B C} (m : M A) (f : A -> M B) (g : B -> M C) s :
  bind (bind m f) g s = bind m (fun a => bind (f a) g) s.
Proof. unfold bind. destruct (m s) as [[]]; reflexivity. Qed.

(** what may begin a node without properties: no anchor, tag, block scalar,
    blank, comment or line break, and no block indicator *)
Definition hd_ok (l : bytes) : bool :=
  match l with
  | [] => false
  | b :: r => not_in [38; 33; 124; 62; 10; 13; 35; 32; 9; 12]%N b
              && negb (is_in [45; 63]%N b && at_bound r)
  end.
Lemma hd_ok_cons l : hd_ok l = true -> exists b r, l = b :: r /\ ~ In b [38; 33; 124; 62; 10; 13; 35; 32; 9; 12]%N
  /\ ((b = 45%N \/ b = 63%N) -> at_bound r = false).
Proof.
  destruct l as [|b r]; [discriminate|]. cbn [hd_ok]. intros H. apply andb_true_iff in H as [H1 H2].
  apply not_in_spec in H1. exists b, r. split; [reflexivity|]. split; [exact H1|]. intros K.
  destruct (at_bound r); [|reflexivity]. replace (is_in [45; 63]%N b) with true in H2; [discriminate|].
  symmetry. apply is_in_spec. simpl. intuition congruence.
Qed.
Lemma hd_gap l : hd_ok l = true -> gap_f true l = None /\ gap_head true l = 0.
Proof.
  intros H. apply hd_ok_cons in H as (b & r & -> & Hb & _). simpl in Hb.
  assert (W : is_ws b = false).
  { destruct (is_ws b) eqn:E; [|reflexivity]. exfalso. unfold is_ws, is_ascii_ws in E.
    repeat (apply andb_true_iff in E as [E ?]). repeat (apply orb_true_iff in E as [E|E]); apply N.eqb_eq in E; subst b; tauto. }
  assert (C : comment_len (b :: r) = 0).
  { unfold comment_len, ws_len. cbn [span]. rewrite W. cbn [skipn]. destruct (N.eqb_spec b 35) as [->|]; [tauto|reflexivity]. }
  unfold gap_f, gap_head. rewrite C. cbv zeta. cbn [skipn]. split; [|reflexivity].
  rewrite nl_len_alt. unfold nl_len'. cbn [starts_with].
  rewrite (proj2 (N.eqb_neq 13 b)), (proj2 (N.eqb_neq 10 b)) by (intros <-; tauto).
  rewrite (proj2 (N.eqb_neq b 10)), (proj2 (N.eqb_neq b 13)) by (intros ->; tauto). reflexivity.
Qed.
Lemma hd_no_gap s : in_doc s -> AT s -> hd_ok (rem s) = true -> gap true s = (RErr Mismatch, s).
Proof.
  intros H A0 Hh. destruct (hd_gap _ Hh) as [G1 G2]. rewrite (gap_exec true s H), G1, G2.
  now rewrite Nat.add_0_r, set_pos_id.
Qed.

(** [scalar_node] without anchor and tag *)
Lemma scalar_node_exec f s : in_doc s -> AT s ->
  (match rem s with x :: _ => x <> 38%N /\ x <> 33%N | [] => True end) ->
  scalar_node f s = match f s with
                    | (ROk y, s') => (ROk (Node (indicator_of s) [] y), set_eaten (p_pos s') s')
                    | (RErr e, s') => (RErr e, s')
                    | (RPanic, s') => (RPanic, s')
                    | (RDiv, s') => (RDiv, s')
                    end.
Proof.
  intros H A0 Hx. unfold scalar_node.
  assert (AN : unwrap_or [] anchor s = (ROk [], s)).
  { unfold anchor. rewrite (unwrap_or_eq _ _ _ _ (miss (chr "&") _ s H A0 ltac:(destruct (rem s); tauto))). reflexivity. }
  assert (TG : unwrap_or [] tag s = (ROk [], s)).
  { unfold tag. rewrite (unwrap_or_eq _ _ _ _ (miss (chr "!") _ s H A0 ltac:(destruct (rem s); tauto))). reflexivity. }
  unfold bind at 1. rewrite AN. cbn [is_nil]. unfold bind at 1, ret at 1.
  unfold bind at 1, forward at 1, modify at 1. rewrite (set_eaten_AT s A0).
  unfold bind at 1. rewrite TG. cbn [is_nil]. unfold bind at 1, ret at 1.
  unfold bind at 1, forward at 1, modify at 1. rewrite (set_eaten_AT s A0).
  unfold bind at 1. rewrite AN. cbn [is_nil]. unfold bind at 1, ret at 1.
  unfold bind at 1, forward at 1, modify at 1. rewrite (set_eaten_AT s A0).
  unfold bind at 1, gets at 1. unfold bind at 1. destruct (f s) as [[y|e| |] s']; reflexivity.
Qed.

(** ** [scalar_term] *)
Definition nonum (l : bytes) : Prop := float_f l = None /\ sci_f l = None /\ int_f l = None.
Definition term2 (n level : nat) (flow : bool) : M yaml :=
    o <- ok anchor_use ;;
    match o with
    | Some s => alias_value s
    | None =>
    o <- ok (string_quoted 39 (lit "''")) ;;
    match o with
    | Some s => ret (YStr s)
    | None =>
    o <- ok (string_quoted 34 [92; 34]%N) ;;
    match o with
    | Some s => ret (YStr (escape s))
    | None =>
    o <- ok (string_plain level flow) ;;
    match o with
    | Some s => ret (plain_value s)
    | None =>
      or_else (or_else (seq_flow n level) (map_flow n level)) (ret YNull)
    end end end end.
Lemma term_nonum n L fl s : in_doc s -> AT s -> nonum (rem s) -> scalar_term (S n) L fl s = term2 n L fl s.
Proof.
  intros H A0 (N1 & N2 & N3). cbn [scalar_term].
  unfold bind at 1. rewrite (ok_eq _ _ _ (float_exec s H A0)), N1.
  unfold bind at 1. rewrite (ok_eq _ _ _ (sci_float_exec s H A0)), N2.
  unfold bind at 1. rewrite (ok_eq _ _ _ (int_exec s H A0)), N3. reflexivity.
Qed.
(** text that does not begin like a number *)
Definition no_num_head (l : bytes) : bool :=
  match l with
  | [] => true
  | b :: r => negb (is_digit b) && negb (N.eqb b 45 && match r with c :: _ => is_digit c | [] => false end)
  end.
Lemma no_num_head_nonum l : no_num_head l = true -> nonum l.
Proof.
  intros H.
  assert (E : num_len l = 0).
  { unfold num_len. destruct l as [|b r]; [reflexivity|]. cbn [no_num_head] in H. apply andb_true_iff in H as [H1 H2].
    destruct (N.eqb_spec b 45) as [->|].
    - cbn [skipn]. cbv zeta. cbn [andb] in H2. destruct r as [|c r]; [reflexivity|]. cbn [span].
      destruct (is_digit c); [discriminate|reflexivity].
    - cbn [skipn span]. destruct (is_digit b); [discriminate|reflexivity]. }
  unfold nonum, float_f, sci_f, int_f, float_len, sci_len. rewrite E. cbn [Nat.eqb skipn].
  destruct l; auto.
Qed.
Lemma quoted_miss q ig s : in_doc s -> AT s -> (match rem s with x :: _ => x <> q | [] => True end) ->
  ok (string_quoted q ig) s = (ROk None, s).
Proof.
  intros H A0 Hx. unfold string_quoted, context. unfold ok.
  rewrite (set_eaten_AT s A0). rewrite (miss q _ s H A0 Hx). now rewrite set_eaten_id.
Qed.
Lemma term_double n L fl s e rest : in_doc s -> AT s -> valid e -> qok e = true ->
  rem s = 34%N :: utf8_encode e ++ 34%N :: rest ->
  scalar_term (S n) L fl s = (ROk (YStr (escape (qs e))), set_pos (p_pos s + List.length (utf8_encode e) + 2) s).
Proof.
  intros H A0 Hv Ho Er. rewrite term_nonum; [|assumption..|apply no_num_head_nonum; now rewrite Er].
  unfold term2. unfold bind at 1, anchor_use. rewrite ok_miss by (try assumption; rewrite Er; discriminate).
  unfold bind at 1. rewrite quoted_miss by (try assumption; rewrite Er; discriminate).
  unfold bind at 1. unfold ok. rewrite string_quoted_is by exact H.
  rewrite (double_fuel _ s e rest H); try assumption; [reflexivity|].
  unfold loop_fuel. pose proof (rem_length s) as RL. rewrite Er in RL. simpl in RL.
  rewrite app_length in RL. pose proof (encode_length e). lia.
Qed.
Lemma term_single n L fl s b rest : in_doc s -> AT s -> valid b -> forallb (not_in [10; 13]%N) b = true ->
  ~ (exists r, rest = 39%N :: r) -> rem s = 39%N :: utf8_encode (dq b) ++ 39%N :: rest ->
  scalar_term (S n) L fl s = (ROk (YStr b), set_pos (p_pos s + List.length (utf8_encode (dq b)) + 2) s).
Proof.
  intros H A0 Hv Ho Hr Er. rewrite term_nonum; [|assumption..|apply no_num_head_nonum; now rewrite Er].
  unfold term2. unfold bind at 1, anchor_use. rewrite ok_miss by (try assumption; rewrite Er; discriminate).
  unfold bind at 1. unfold ok. rewrite string_quoted_is by exact H.
  rewrite (single_fuel _ s b rest H); try assumption; [reflexivity|].
  unfold loop_fuel. pose proof (rem_length s) as RL. rewrite Er in RL. simpl in RL.
  rewrite app_length in RL. pose proof (encode_length (dq b)). pose proof (dq_length b). lia.
Qed.
Definition reads (N L : nat) (fl : bool) (s : st) (y : yaml) (s' : st) : Prop :=
  forall n, N <= n -> scalar_term n L fl s = (ROk y, s').
Lemma term_plain L fl s t rest : in_doc s -> AT s -> valid t -> t <> [] -> trim_end t = t ->
  plainb fl true t = true -> rem s = utf8_encode t ++ rest -> ends fl (depth (p_indent s) L) rest ->
  nonum (rem s) -> (match rem s with x :: _ => ~ In x [42; 39; 34]%N | [] => True end) ->
  exists s', reads 1 L fl s (plain_value t) s' /\ after L (List.length (utf8_encode t)) s s'.
Proof.
  intros H A0 Hv Hn Ht Hp Er He Hnn Hd.
  destruct (string_plain_exec L fl s t rest H Hv Hn Ht Hp Er He) as (s' & E & Ha). exists s'. split; [|exact Ha].
  intros n Hn'. destruct n as [|n]; [lia|]. rewrite (term_nonum n L fl s H A0 Hnn).
  assert (Hx : forall c, In c [42; 39; 34]%N -> match rem s with x :: _ => x <> c | [] => True end).
  { intros c Hc. destruct (rem s); [exact Logic.I|]. intros ->. now apply Hd. }
  unfold term2. unfold bind at 1, anchor_use. rewrite (ok_miss _ _ s H A0) by (apply Hx; simpl; auto).
  unfold bind at 1. rewrite (quoted_miss _ _ s H A0) by (apply Hx; simpl; auto).
  unfold bind at 1. rewrite (quoted_miss _ _ s H A0) by (apply Hx; simpl; auto).
  unfold bind at 1. rewrite (ok_eq _ _ _ E). reflexivity.
Qed.
(** numbers: the blanks behind one are taken too *)
Lemma int_no_float t l : int_literal t -> stopper l -> float_f (t ++ l) = None /\ sci_f (t ++ l) = None.
Proof.
  intros Ht (c & r & -> & Hc). destruct (stop_char c Hc) as (S1 & S2 & S3 & S4 & S5 & S6 & S7 & S8 & S9).
  assert (K : exists x y, skipn (num_len (t ++ c :: r)) (t ++ c :: r) = x :: y /\ x <> 46%N /\ is_in (lit "eE") x = false).
  { assert (DEC : dec_text t -> exists x y, skipn (num_len (t ++ c :: r)) (t ++ c :: r) = x :: y /\ x <> 46%N /\ is_in (lit "eE") x = false).
    { intros D. rewrite (num_len_dec t (c :: r) D S1). rewrite skipn_app_len. exists c, r. split; [reflexivity|]. split; [exact S7|].
      destruct (is_in (lit "eE") c) eqn:E; [|reflexivity]. apply is_in_spec in E. simpl in E. destruct E as [<-|[<-|[]]]; congruence. }
    destruct Ht as [ds Hn Hd|ds Hn Hd|ds Hn Hd|ds Hn Hd].
    - apply DEC. exists false, ds. split; [reflexivity|]. split; [exact Hn|]. now apply digits_forallb.
    - apply DEC. exists true, ds. split; [reflexivity|]. split; [exact Hn|]. now apply digits_forallb.
    - exists 111%N, (ds ++ c :: r). repeat split; try discriminate.
    - exists 120%N, (ds ++ c :: r). repeat split; try discriminate. }
  destruct K as (x & y & E & Hx & He). unfold float_f, sci_f, float_len, sci_len. rewrite E.
  rewrite (proj2 (N.eqb_neq x 46) Hx), He. cbv zeta.
  destruct (Nat.eqb (num_len (t ++ c :: r)) 0); auto.
Qed.
Lemma term_int n L fl s t w rest : in_doc s -> AT s -> int_literal t -> int_end w rest -> rem s = t ++ w ++ rest ->
  scalar_term (S n) L fl s = (ROk (YInt t), set_pos (p_pos s + List.length t + List.length w) s).
Proof.
  intros H A0 Ht Hw Er.
  assert (ST : stopper (w ++ rest)).
  { destruct Hw as (Hw & c & r & -> & Hc & _). destruct w as [|x w]; [exists c, r; auto|].
    exists x, (w ++ c :: r). split; [reflexivity|]. left. now inversion Hw. }
  destruct (int_no_float t _ Ht ST) as [F1 F2].
  cbn [scalar_term]. unfold bind at 1. rewrite (ok_eq _ _ _ (float_exec s H A0)), Er, F1.
  unfold bind at 1. rewrite (ok_eq _ _ _ (sci_float_exec s H A0)), Er, F2.
  unfold bind at 1. rewrite (ok_eq _ _ _ (int_exec s H A0)), Er, (int_f_complete t w rest Ht Hw).
  rewrite firstn_app_len, utf8_lossy_ascii by (now apply int_literal_ascii). unfold ret. now rewrite Nat.add_assoc.
Qed.

(** ** A node that is not a block collection *)
(** no [:] that separates a key from its value *)
Definition no_colon (l : bytes) : Prop := forall r, l = 58%N :: r -> at_bound r = false.

Lemma hd_dash s c : in_doc s -> AT s -> hd_ok (rem s) = true -> c = 45%N \/ c = 63%N ->
  forall A (k : unit -> M A), (sym c ;;; (bound ;;; k tt)) s = (RErr Mismatch, s).
Proof.
  intros H A0 Hh Hc A k. apply hd_ok_cons in Hh as (b & r & R & _ & Hb).
  unfold bind at 1. rewrite (sym_exec c s H), R. destruct (N.eqb_spec b c) as [->|]; [|now rewrite A0, set_pos_id].
  assert (H1 : in_doc (set_pos (p_pos s + 1) s)) by (apply in_doc_add; [rewrite R; simpl; lia|exact H]).
  unfold bind. rewrite (bound_exec _ H1), rem_add, R. cbn [skipn]. rewrite (Hb Hc).
  cbn [p_eaten set_pos]. now rewrite set_pos_pos, A0, set_pos_id.
Qed.
Lemma seq_miss n L map s : in_doc s -> AT s -> hd_ok (rem s) = true ->
  Loader.seq (S (S n)) L map s = (RErr Mismatch, s).
Proof.
  intros H A0 Hh. cbn [Loader.seq seq_loop]. unfold bind at 1, forward at 1, modify at 1. rewrite (set_eaten_AT s A0).
  rewrite bind_assoc'. destruct map.
  - unfold bind at 1. unfold bind at 1. now rewrite (hd_no_gap s H A0 Hh).
  - unfold bind at 1. unfold bind at 1. rewrite (is_ok_eq _ _ _ (hd_no_gap s H A0 Hh)). unfold ret at 1. cbv iota beta.
    rewrite bind_assoc'. unfold bind at 1.
    pose proof (hd_dash s 45%N H A0 Hh (or_introl eq_refl) unit (fun _ => ret tt)) as K. revert K.
    change (chr "-") with 45%N. unfold bind at 1. destruct (sym 45 s) as [[u|e| |] s1]; try discriminate; [|now intros [= -> ->]].
    unfold bind. destruct (bound s1) as [[u1|e| |] s2]; try discriminate. now intros [= -> ->].
Qed.
Lemma map_true_miss n L fl s : in_doc s -> AT s -> hd_ok (rem s) = true ->
  map_ (S (S n)) L true fl s = (RErr Mismatch, s).
Proof.
  intros H A0 Hh. cbn [map_ map_loop]. unfold bind at 1, forward at 1, modify at 1. rewrite (set_eaten_AT s A0).
  unfold bind at 1. unfold bind at 1. unfold bind at 1. now rewrite (hd_no_gap s H A0 Hh).
Qed.
Lemma complex_miss s : in_doc s -> AT s -> hd_ok (rem s) = true -> is_ok complex_mapping s = (ROk false, s).
Proof.
  intros H A0 Hh. pose proof (hd_dash s 63%N H A0 Hh (or_intror eq_refl) unit (fun _ => ret tt)) as K. revert K.
  unfold complex_mapping, is_ok. change (chr "?") with 63%N. unfold bind.
  destruct (sym 63 s) as [[u|e| |] s1]; try discriminate; [|now intros [= -> ->]].
  destruct (bound s1) as [[u1|e| |] s2]; try discriminate. now intros [= -> ->].
Qed.
Lemma hd_props s : hd_ok (rem s) = true -> match rem s with x :: _ => x <> 38%N /\ x <> 33%N | [] => True end.
Proof.
  intros Hh. apply hd_ok_cons in Hh as (b & r & -> & Hb & _). split; intros ->; apply Hb; simpl; auto.
Qed.
Lemma scalar_flow_exec N L fl s y s1 : in_doc s -> AT s ->
  (match rem s with x :: _ => x <> 38%N /\ x <> 33%N | [] => True end) -> reads N L fl s y s1 ->
  forall n, S N <= n -> scalar_flow n L fl s = (ROk (Node (indicator_of s) [] y), set_eaten (p_pos s1) s1).
Proof.
  intros H A0 Hx Hr n Hn. destruct n as [|n]; [lia|]. cbn [scalar_flow].
  rewrite scalar_node_exec by assumption. now rewrite (Hr n) by lia.
Qed.
Lemma no_colon_exec s : in_doc s -> AT s -> no_colon (rem s) ->
  orM (is_err (sym (chr ":"))) (is_err bound) s = (ROk true, s).
Proof.
  intros H A0 Hc. unfold orM. unfold bind at 1. rewrite (is_err_eq _ _ _ (sym_exec (chr ":") s H)).
  change (chr ":") with 58%N. destruct (rem s) as [|x r] eqn:R; [now rewrite A0, set_pos_id|].
  destruct (N.eqb_spec x 58) as [->|]; [|now rewrite A0, set_pos_id].
  assert (H1 : in_doc (set_pos (p_pos s + 1) s)) by (apply in_doc_add; [rewrite R; simpl; lia|exact H]).
  rewrite (is_err_eq _ _ _ (bound_exec _ H1)), rem_add, R. cbn [skipn]. rewrite (Hc r eq_refl).
  cbn [p_eaten set_pos]. now rewrite set_pos_pos, A0, set_pos_id.
Qed.
(** [map_] where no key stands: it gives the scalar back *)
Lemma map_false_leaf N L fl s y s1 : in_doc s -> AT s -> hd_ok (rem s) = true -> reads N (L + 1) fl s y s1 ->
  in_doc s1 -> no_colon (rem s1) ->
  forall n, N + 3 <= n -> map_ n L false fl s = (ROk y, set_eaten (p_pos s1) s1).
Proof.
  intros H A0 Hh Hr H1 Hc n Hn. destruct n as [|[|n]]; [lia|lia|]. cbn [map_ map_loop].
  unfold bind at 1, forward at 1, modify at 1. rewrite (set_eaten_AT s A0).
  unfold bind at 1. unfold bind at 1. unfold bind at 1. rewrite (is_ok_eq _ _ _ (hd_no_gap s H A0 Hh)). unfold ret at 1. cbv iota beta.
  unfold bind at 1, forward at 1, modify at 1. rewrite (set_eaten_AT s A0).
  unfold bind at 1. rewrite (complex_miss s H A0 Hh). cbv iota beta.
  unfold bind at 1. rewrite (scalar_flow_exec N _ fl s y s1 H A0 (hd_props s Hh) Hr n) by lia.
  unfold bind at 1. rewrite no_colon_exec; [reflexivity|exact H1|reflexivity|exact Hc].
Qed.
Lemma scalar_hd n L map fl s : in_doc s -> AT s -> hd_ok (rem s) = true ->
  scalar (S n) L map fl s
  = match or_else (or_else (Loader.seq n L map) (map_ n L map fl)) (scalar_term n L fl) s with
    | (ROk y, s') => (ROk (Node (indicator_of s) [] y), set_eaten (p_pos s') s')
    | (RErr e, s') => (RErr e, s')
    | (RPanic, s') => (RPanic, s')
    | (RDiv, s') => (RDiv, s')
    end.
Proof.
  intros H A0 Hh. cbn [scalar]. rewrite scalar_node_exec by (try assumption; now apply hd_props).
  assert (Hx : forall c, In c [38; 33; 124; 62; 10; 13; 35; 32; 9; 12]%N -> match rem s with x :: _ => x <> c | [] => True end).
  { apply hd_ok_cons in Hh as (b & r & -> & Hb & _). intros c Hc ->. now apply Hb. }
  unfold string_literal, string_folded.
  unfold bind at 1. rewrite (ok_miss _ _ s H A0) by (apply Hx; simpl; auto).
  unfold bind at 1. rewrite (ok_miss _ _ s H A0) by (apply Hx; simpl; auto). reflexivity.
Qed.
Lemma scalar_leaf_false N L fl s y s1 : in_doc s -> AT s -> hd_ok (rem s) = true -> reads N (L + 1) fl s y s1 ->
  in_doc s1 -> no_colon (rem s1) ->
  forall n, N + 4 <= n -> scalar n L false fl s = (ROk (Node (indicator_of s) [] y), set_eaten (p_pos s1) s1).
Proof.
  intros H A0 Hh Hr H1 Hc n Hn. destruct n as [|n]; [lia|]. rewrite scalar_hd by assumption.
  unfold or_else. destruct n as [|[|n]]; [lia|lia|]. rewrite seq_miss by assumption.
  rewrite (map_false_leaf N L fl s y s1 H A0 Hh Hr H1 Hc) by lia. reflexivity.
Qed.
Lemma scalar_leaf_true N L fl s y s1 : in_doc s -> AT s -> hd_ok (rem s) = true -> reads N L fl s y s1 ->
  forall n, N + 3 <= n -> scalar n L true fl s = (ROk (Node (indicator_of s) [] y), set_eaten (p_pos s1) s1).
Proof.
  intros H A0 Hh Hr n Hn. destruct n as [|n]; [lia|]. rewrite scalar_hd by assumption.
  unfold or_else. destruct n as [|[|n]]; [lia|lia|]. rewrite seq_miss by assumption.
  rewrite map_true_miss by assumption. rewrite (Hr (S (S n))) by lia. reflexivity.
Qed.

Lemma after_props L k s s' : in_doc s -> k <= List.length (rem s) -> after L k s s' ->
  in_doc s' /\ rem s' = skipn k (rem s) /\ p_pos s' = p_pos s + k.
Proof.
  intros H Hk (tb & -> & _). unfold in_doc, rem in *. cbn. rewrite skipn_length in Hk.
  split; [lia|]. split; [now rewrite skipn_add|reflexivity].
Qed.
Lemma depth_norm L tb j : j <= L -> depth (ind_norm L tb) j = depth tb j.
Proof. intros H. apply depth_ext. intros i Hi. apply ind_norm_width. lia. Qed.
