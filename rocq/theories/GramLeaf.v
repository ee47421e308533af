(** * C48: scalars on one line *)
From Verif Require Export Fold GramBase.
Open Scope nat_scope.

(** ** Words are no numbers *)
Definition after_word (x : N) : Prop := In x [10; 13; 58; 44; 93; 125; 32; 9; 12]%N.
(** one of these, or the end of the file *)
Definition aw (l : bytes) : Prop := match l with x :: _ => after_word x | [] => True end.
Lemma literal_char_not t x : int_literal t \/ float_literal t \/ sci_literal t -> after_word x -> ~ In x t.
Proof.
  intros H Hx. assert (A : In x t -> (43 <= x)%N /\ x <> 44%N /\ x <> 58%N /\ x <> 93%N /\ x <> 125%N).
  { assert (D : forall ds, Forall digit ds -> In x ds -> (43 <= x)%N /\ x <> 44%N /\ x <> 58%N /\ x <> 93%N /\ x <> 125%N).
    { intros ds Hd K. rewrite Forall_forall in Hd. specialize (Hd x K). unfold digit in Hd. lia. }
    assert (S : forall neg, In x (sign neg) -> (43 <= x)%N /\ x <> 44%N /\ x <> 58%N /\ x <> 93%N /\ x <> 125%N)
      by (intros [] K; simpl in K; [destruct K as [<-|[]]; lia|destruct K]).
    destruct H as [[ds Hn Hd|ds Hn Hd|ds Hn Hd|ds Hn Hd]|[[neg ds fs Hn Hd Hf]|[neg ds e sg es Hn Hd He Hs Hes Hd']]]; intros K.
    - eauto.
    - destruct K as [<-|K]; [lia|eauto].
    - destruct K as [<-|[<-|K]]; [lia|lia|]. rewrite Forall_forall in Hd. specialize (Hd x K). unfold oct_char, digit in Hd. lia.
    - destruct K as [<-|[<-|K]]; [lia|lia|]. rewrite Forall_forall in Hd. specialize (Hd x K). unfold hex_char, digit in Hd. lia.
    - rewrite !in_app_iff in K. destruct K as [K|[K|[<-|K]]]; eauto. lia.
    - rewrite !in_app_iff in K. destruct K as [K|[K|[<-|K]]]; eauto; [lia|]. apply in_app_iff in K as [K|K]; eauto.
      destruct Hs as [->|[->| ->]]; simpl in K; intuition lia. }
  intros K. specialize (A K). unfold after_word in Hx. simpl in Hx. intuition lia.
Qed.
(** the last byte of a text with a visible last character *)
Lemma last_byte t a b : (forall a c, t = a ++ [c] -> is_uni_ws c = false) -> utf8_encode t = a ++ [b] -> ~ blank b.
Proof.
  intros H E. destruct t as [|c0 t0] using rev_ind; [destruct a; discriminate|]. specialize (H t0 c0 eq_refl).
  rewrite encode_app in E. assert (Ec : utf8_encode [c0] = encode_char c0) by (cbn; apply app_nil_r). rewrite Ec in E.
  destruct (N.lt_ge_cases c0 128) as [L|L].
  - rewrite encode_ascii in E by exact L. apply app_inj_tail in E as [_ <-]. intros [->|[->| ->]]; discriminate.
  - assert (IN : In b (encode_char c0)).
    { assert (NE : encode_char c0 <> []) by (intros K; destruct (encode_head c0 []) as (b' & r & K' & _); rewrite K in K'; discriminate).
      destruct (exists_last NE) as (r' & b' & Eb). rewrite Eb in E |- *. rewrite app_assoc in E. apply app_inj_tail in E as [_ <-].
      apply in_app_iff. right. now left. }
    apply (encode_multi c0 _ L) in IN. unfold blank. lia.
Qed.

Lemma split_blanks (t2 w : bytes) : forall rest rest2, t2 ++ rest = w ++ rest2 -> Forall blank w -> (forall a b, t2 = a ++ [b] -> ~ blank b) ->
  t2 = [] \/ exists c t3, t2 = w ++ c :: t3 /\ rest2 = c :: t3 ++ rest.
Proof.
  revert w. induction t2 as [|x t2 IH]; intros w rest rest2 E Hw Hl; [now left|]. right.
  destruct w as [|y w]; cbn [app] in E; [exists x, t2; split; [reflexivity|now rewrite <- E]|].
  injection E as <- E. inversion Hw as [|? ? Hx Hw']; subst. destruct (IH w rest rest2 E Hw') as [->|(c & t3 & -> & ->)].
  - intros a b ->. apply (Hl (x :: a)). reflexivity.
  - exfalso. apply (Hl [] x eq_refl Hx).
  - exists c, t3. auto.
Qed.
Lemma number_line_more l : number_line l -> number_line (l ++ [10%N]).
Proof.
  intros (t & w & rest & -> & K). exists t, w, (rest ++ [10%N]). split; [now rewrite <- !app_assoc|].
  destruct K as [[K1 (K2 & c & r & -> & K3)]|[K1 (K2 & K3 & K4)]]; [left|right]; (split; [exact K1|]).
  - split; [exact K2|]. exists c, (r ++ [10%N]). auto.
  - split; [exact K2|]. split.
    + destruct rest as [|z rest]; intros c r [= <- _]; [unfold blank; lia|eauto].
    + destruct K4 as [(K4 & c & r & -> & K5)|K4]; [left; split; [exact K4|]; exists c, (r ++ [10%N]); auto|right; exact K4].
Qed.
Lemma word_not_number t l : (forall a c, t = a ++ [c] -> is_uni_ws c = false) -> ~ number_line (utf8_encode t ++ [10%N]) -> aw l ->
  ~ number_line (utf8_encode t ++ l).
Proof.
  intros Hl Hn Hx. destruct l as [|x r]; [rewrite app_nil_r; intros K; now apply Hn, number_line_more|]. cbn [aw] in Hx. intros (n & w & rest2 & E & K). apply Hn.
  assert (LN : int_literal n \/ float_literal n \/ sci_literal n) by tauto.
  destruct (cut_prefix x n _ _ _ E (literal_char_not n x LN Hx)) as (t2 & E2 & E3).
  assert (W : Forall blank w) by (destruct K as [[_ [K _]]|[_ [K _]]]; exact K).
  destruct (split_blanks t2 w (x :: r) rest2 (eq_sym E3) W) as [->|(c & t3 & -> & ->)].
  - intros a b ->. apply (last_byte t (n ++ a) b Hl). now rewrite E2, app_assoc.
  - exists n, [], [10%N]. split; [now rewrite E2, app_nil_r|].
    destruct K as [[K _]|[K _]]; [left|right]; (split; [exact K|]); (split; [constructor|]).
    + exists 10%N, []. split; [reflexivity|]. split; [unfold bound_char; simpl; tauto|unfold blank; lia].
    + split; [intros c q [= <- _]; unfold blank; lia|]. left. split; [reflexivity|]. exists 10%N, []. split; [reflexivity|]. unfold bound_char. simpl. tauto.
  - exists n, w, (c :: t3 ++ [10%N]). split; [rewrite E2, <- !app_assoc; reflexivity|].
    destruct K as [[K1 K2]|[K1 K2]]; [left|right]; (split; [exact K1|]).
    + destruct K2 as (_ & c' & q & [= <- <-] & K2). split; [exact W|]. eauto.
    + destruct K2 as (_ & K2 & K3). split; [exact W|]. split; [intros c' q [= <- <-]; eapply K2; reflexivity|].
      destruct K3 as [(Ew & c' & q & [= <- <-] & K3)|K3]; [left|right; exact K3]. eauto.
Qed.

(** ** The words of plain text up to the last one *)
Lemma plain_last L inner rest : forall m t n v s, List.length t <= m -> m < n -> in_doc s -> valid t ->
  plainb inner (is_nil v) t = true -> rem s = utf8_encode t ++ rest ->
  exists n' v0 t0 E, plain_loop n L inner v false s
     = plain_loop n' L inner v0 false (set_pos (p_pos s + (blen t - blen t0)) (set_eaten E s))
    /\ v0 ++ t0 = v ++ t /\ blen t0 <= blen t /\ forallb (not_in (plain_patt inner)) t0 = true /\ valid t0
    /\ rem (set_pos (p_pos s + (blen t - blen t0)) (set_eaten E s)) = utf8_encode t0 ++ rest
    /\ in_doc (set_pos (p_pos s + (blen t - blen t0)) (set_eaten E s)) /\ n <= n' + List.length t /\ 0 < n' /\ (v0 ++ t0 = [] -> t = []).
Proof.
  induction m as [m IH] using lt_wf_ind. intros t n v s Hm Hn H Hv Hp Er.
  destruct n as [|n]; [lia|].
  destruct (plain_split _ _ _ Hp) as (t0 & t' & -> & Ht0 & Ht').
  apply valid_app in Hv as [Hv0 Hv'].
  destruct Ht' as [-> |(c & r & -> & Hc & Hp')].
  - rewrite app_nil_r in *. exists (S n), v, t0, (p_eaten s). rewrite Nat.sub_diag, Nat.add_0_r.
    assert (ES : set_pos (p_pos s) (set_eaten (p_eaten s) s) = s) by (rewrite set_eaten_id; apply set_pos_id).
    rewrite ES. repeat split; try assumption; try lia. intros K. now apply app_eq_nil in K.
  - rewrite encode_app, <- app_assoc in Er.
    assert (Hc128 : (c < 128)%N).
    { apply (proj1 (Forall_forall _ _) (asciis_Forall _ (plain_patt_ascii inner)) c). now apply is_in_spec. }
    assert (Hs : starts_in (plain_patt inner) (utf8_encode (c :: r) ++ rest)).
    { rewrite encode_cons_ascii by exact Hc128. change (In c (plain_patt inner)). now apply is_in_spec. }
    destruct (plain_step n L inner v false s t0 _ H Hv0 Ht0 Hs Er) as (E1 & R1 & D1).
    rewrite E1, encode_app, !app_length. rewrite app_length in Hm.
    set (p := p_pos s + blen t0) in *. pose proof (AT_at p s) as A1.
    rewrite in_patt in Hc. cbn [plainb] in Hp'. apply andb_true_iff in Hp' as [Hp1 Hp2].
    assert (Hv1 : valid r) by now apply valid_cons in Hv' as [_ ?].
    rewrite encode_cons_ascii in R1 by exact Hc128. cbn [app] in R1.
    pose proof (encode_len_cons c r Hc128) as HL. 
    assert (GO : plain_rest n L inner (v ++ t0) false (at_pos p s) = plain_loop n L inner ((v ++ t0) ++ [c]) false (set_pos (p_pos (at_pos p s) + 1) (at_pos p s)) ->
      exists n' v0 t1 E, plain_rest n L inner (v ++ t0) false (at_pos p s)
        = plain_loop n' L inner v0 false (set_pos (p_pos s + (blen t0 + blen (c :: r) - blen t1)) (set_eaten E s))
      /\ v0 ++ t1 = v ++ t0 ++ c :: r /\ blen t1 <= blen t0 + blen (c :: r) /\ forallb (not_in (plain_patt inner)) t1 = true /\ valid t1
      /\ rem (set_pos (p_pos s + (blen t0 + blen (c :: r) - blen t1)) (set_eaten E s)) = utf8_encode t1 ++ rest
      /\ in_doc (set_pos (p_pos s + (blen t0 + blen (c :: r) - blen t1)) (set_eaten E s)) /\ S n <= n' + (List.length t0 + List.length (c :: r)) /\ 0 < n' /\ (v0 ++ t1 = [] -> t0 ++ c :: r = [])).
    { intros ->. destruct (IH (List.length r) ltac:(simpl in Hm; lia) r n ((v ++ t0) ++ [c]) (set_pos (p_pos (at_pos p s) + 1) (at_pos p s)))
        as (n' & v0 & t1 & E & EE & K1 & K2 & K3 & K4 & K5 & K6 & K7 & K8 & K9).
      - apply le_n.
      - simpl in Hm; lia.
      - apply in_doc_add; [rewrite R1; simpl; lia|exact D1].
      - exact Hv1.
      - replace (is_nil ((v ++ t0) ++ [c])) with false by (destruct (v ++ t0); reflexivity). exact Hp2.
      - rewrite rem_add, R1. reflexivity.
      - assert (SS : set_pos (p_pos (set_pos (p_pos (at_pos p s) + 1) (at_pos p s)) + (blen r - blen t1)) (set_eaten E (set_pos (p_pos (at_pos p s) + 1) (at_pos p s)))
           = set_pos (p_pos s + (blen t0 + blen (c :: r) - blen t1)) (set_eaten E s)).
        { apply st_ext; try reflexivity. cbn [at_pos set_pos set_eaten p_pos]. unfold p. rewrite HL. lia. }
        rewrite SS in *. exists n', v0, t1, E. rewrite EE. split; [reflexivity|]. split; [rewrite K1, <- !app_assoc; reflexivity|].
        split; [rewrite HL; lia|]. split; [exact K3|]. split; [exact K4|]. split; [exact K5|]. split; [exact K6|]. cbn [List.length].
        split; [lia|]. split; [exact K8|]. rewrite K1. intros K. destruct (v ++ t0); discriminate. }
    destruct (is_in [10; 13]%N c) eqn:B1; [discriminate|].
    destruct (is_in (lit "[]{}") c) eqn:B2.
    { apply andb_true_iff in Hp1 as [I1 I2]. destruct inner; [discriminate|].
      apply GO. apply (plain_rest_bracket n L (v ++ t0) _ c _ D1 A1 R1).
      - apply is_in_spec in B2. simpl in *. tauto.
      - destruct v, t0; try discriminate. }
    cbn [orb] in Hc. destruct (N.eqb_spec c 44) as [->|N44].
    { destruct inner; discriminate. }
    rewrite andb_false_r in Hc. cbn [orb] in Hc.
    destruct (N.eqb_spec c 58) as [->|N58].
    { destruct r as [|d r]; [discriminate|].
      destruct (next_not (d :: r) rest [32; 10; 13]%N ltac:(discriminate) ltac:(reflexivity) Hp1) as (b & r' & Eb & Hb).
      apply GO. apply (plain_rest_colon n L inner (v ++ t0) _ 58%N _ D1 A1 R1); [auto|]. rewrite R1, Eb. now apply stop_colon. }
    cbn [orb] in Hc. apply N.eqb_eq in Hc. subst c. cbn in Hp1.
    destruct r as [|d r]; [discriminate|].
    destruct (next_not (d :: r) rest [35]%N ltac:(discriminate) ltac:(reflexivity)) as (b & r' & Eb & Hb).
    { apply not_in_spec. intros [<-|[]]. discriminate. }
    apply GO. apply (plain_rest_colon n L inner (v ++ t0) _ 32%N _ D1 A1 R1); [auto|].
    rewrite R1, Eb. apply stop_space. apply not_in_spec in Hb. intros ->. apply Hb. now left.
Qed.

(** ** Words *)
(** a word behind which the blanks or line breaks [a] stand *)
Lemma seg_skip n L inner v lead s t0 a tl : in_doc s -> valid t0 -> forallb (not_in (plain_patt inner)) t0 = true ->
  valid a -> forallb (not_in (plain_patt inner)) a = true -> starts_in (plain_patt inner) tl -> rem s = utf8_encode t0 ++ utf8_encode a ++ tl ->
  plain_loop (S n) L inner v lead s = plain_loop (S n) L inner (v ++ t0) lead (set_pos (p_pos s + blen t0) s).
Proof.
  intros H Hv Ht Hva Ha Hs R. set (s1 := set_pos (p_pos s + blen t0) s).
  assert (D1 : in_doc s1) by (apply in_doc_add; [rewrite R, app_length; lia|exact H]).
  assert (R1 : rem s1 = utf8_encode a ++ tl) by (unfold s1; rewrite rem_add, R; apply skipn_app_len).
  destruct (plain_step n L inner (v ++ t0) lead s1 a tl D1 Hva Ha Hs R1) as (E1 & _ & _).
  rewrite app_assoc, <- encode_app in R.
  destruct (plain_step n L inner v lead s (t0 ++ a) tl H) as (E2 & _ & _); [now apply valid_app|now rewrite forallb_app, Ht, Ha|exact Hs|exact R|].
  rewrite E1, E2, <- app_assoc. f_equal. unfold s1, at_pos, set_pos, set_eaten. cbn. rewrite encode_app, app_length. f_equal; lia.
Qed.
Lemma ws_segment inner w c r : wsl w -> closer c -> inner = true -> exists a tl, w ++ c :: r = utf8_encode a ++ tl /\ valid a
  /\ forallb (not_in (plain_patt inner)) a = true /\ starts_in (plain_patt inner) tl.
Proof.
  intros Hw Hc ->. induction w as [|x w IHw].
  - exists [], (c :: r). split; [reflexivity|]. split; [reflexivity|]. split; [reflexivity|].
    apply is_in_spec. rewrite in_patt. destruct Hc as [<-|[<-|[<-|[]]]]; reflexivity.
  - apply wsl_cons in Hw as [Hx Hw]. destruct (IHw Hw) as (t0 & tl & E & A1 & A2 & A3).
    assert (X : In x [32; 9; 10; 12; 13]%N) by now apply ascii_ws_in.
    destruct (is_in (plain_patt true) x) eqn:Ex.
    + exists [], (x :: w ++ c :: r). split; [reflexivity|]. split; [reflexivity|]. split; [reflexivity|]. now apply is_in_spec.
    + exists (x :: t0), tl. rewrite encode_cons_ascii by (simpl in X; intuition lia). cbn [app]. rewrite E. split; [reflexivity|].
      split; [apply valid_cons; split; [simpl in X; destruct X as [<-|[<-|[<-|[<-|[<-|[]]]]]]; reflexivity|exact A1]|].
      cbn [forallb]. rewrite not_in_is, Ex, A2. auto.
Qed.
Lemma word_end_ws L s t w c r : in_doc s -> valid t -> t <> [] -> trim_end t = t ->
  plainb true true t = true -> rem s = utf8_encode t ++ w ++ c :: r -> wsl w -> closer c ->
  0 < depth (p_indent s) L ->
  exists k tb, string_plain L true s = (ROk t, set_pos (p_pos s + blen t + k) (set_indent tb s))
    /\ k <= List.length w /\ tb_ok L (p_indent s) tb.
Proof.
  intros H Hv Hn Ht Hp Er Hw Hc Hd. unfold string_plain, context. set (s0 := set_eaten (p_pos s) s).
  unfold bind, gets.
  assert (LN : List.length t + List.length w < loop_fuel s0).
  { unfold loop_fuel. pose proof (rem_length s) as RL. rewrite Er, !app_length in RL. pose proof (encode_length t). unfold s0. cbn [p_doc set_eaten]. lia. }
  assert (D0 : in_doc s0) by exact H. assert (R0 : rem s0 = utf8_encode t ++ w ++ c :: r) by exact Er.
  assert (LT : List.length t < loop_fuel s0) by lia.
  destruct (plain_last L true (w ++ c :: r) (List.length t) t (loop_fuel s0) [] s0 (le_n _) LT D0 Hv Hp R0) as (n' & v0 & t0 & E & EE & K1 & K2 & K3 & K4 & K5 & K6 & K7 & K8 & K9).
  rewrite EE. set (s1 := set_pos _ _) in *. cbn [app] in K1. destruct n' as [|n']; [lia|].
  destruct (ws_segment true w c r Hw Hc eq_refl) as (a & tl & Ea & A1 & A2 & A3).
  rewrite (seg_skip n' L true v0 false s1 t0 a tl K6 K4 K3 A1 A2 A3) by (rewrite K5, Ea; reflexivity). rewrite K1.
  set (s2 := set_pos (p_pos s1 + blen t0) s1).
  assert (D2 : in_doc s2) by (apply in_doc_add; [rewrite K5, app_length; lia|exact K6]).
  assert (R2 : rem s2 = w ++ c :: r) by (unfold s2; rewrite rem_add, K5; apply skipn_app_len).
  assert (Ln : List.length w < S n') by lia.
  destruct (plain_ws L (List.length w) w (S n') t false s2 c r (le_n _) Ln D2 Hw Hc R2 Hd) as (v' & k & s' & EE' & T & Hk & tb & E' & -> & Htb).
  rewrite EE', T, Ht. destruct t as [|x t]; [congruence|]. unfold ret.
  exists k, tb. split; [|split; [exact Hk|exact Htb]].
  f_equal. unfold s2, s1, s0. apply st_ext; try reflexivity. cbn [p_pos set_pos set_eaten set_indent]. lia.
Qed.
Lemma plain_spaces L inner q : forall j n v s, j < n -> in_doc s -> rem s = repeat 32%N (S j) ++ 35%N :: q ->
  exists x tb E, plain_loop n L inner v false s = (ROk (v ++ x), set_pos (p_pos s + j) (set_eaten E (set_indent tb s)))
    /\ forallb is_uni_ws x = true /\ tb_ok L (p_indent s) tb.
Proof.
  induction j as [|j IH]; intros n v s Hn H R; (destruct n as [|n]; [lia|]).
  - destruct (plain_run L inner (32%N :: 35%N :: q) 0 [] (S n) v s (le_n _) ltac:(lia) H eq_refl eq_refl R) as (x & tb & E & EE & Hx & Htb); [now left|].
    exists x, tb, E. cbn [app] in EE. rewrite EE. auto.
  - assert (ST : starts_in (plain_patt inner) (repeat 32%N (S (S j)) ++ 35%N :: q)).
    { cbn [repeat app]. change (In 32%N (plain_patt inner)). apply is_in_spec. rewrite in_patt. cbn. now rewrite !orb_true_r. }
    destruct (plain_step n L inner v false s [] _ H eq_refl eq_refl ST R) as (E1 & R1 & D1). cbn [utf8_encode flat_map List.length] in *.
    rewrite E1, app_nil_r. rewrite Nat.add_0_r in *. set (s1 := at_pos (p_pos s) s) in *.
    assert (A1 : AT s1) by reflexivity.
    cbn [repeat app] in R1. rewrite (plain_rest_colon n L inner v s1 32%N _ D1 A1 R1); [|auto|rewrite R1; now apply stop_space].
    set (s2 := set_pos (p_pos s1 + 1) s1).
    destruct (IH n (v ++ [32%N]) s2 ltac:(lia)) as (x & tb & E & EE & Hx & Htb).
    + apply in_doc_add; [rewrite R1; cbn; lia|exact D1].
    + unfold s2. rewrite rem_add, R1. reflexivity.
    + exists ([32%N] ++ x), tb, E. rewrite EE. split; [|split; [exact Hx|exact Htb]]. f_equal; [now rewrite <- app_assoc|].
      unfold s2, s1. apply st_ext; try reflexivity. cbn. lia.
Qed.
Lemma word_end_comment L inner s t j q : in_doc s -> valid t -> t <> [] -> trim_end t = t ->
  plainb inner true t = true -> rem s = utf8_encode t ++ repeat 32%N (S j) ++ 35%N :: q ->
  exists tb, string_plain L inner s = (ROk t, set_pos (p_pos s + blen t + j) (set_indent tb s)) /\ tb_ok L (p_indent s) tb.
Proof.
  intros H Hv Hn Ht Hp Er. unfold string_plain, context. set (s0 := set_eaten (p_pos s) s).
  unfold bind, gets.
  assert (LN : List.length t + j < loop_fuel s0).
  { unfold loop_fuel. pose proof (rem_length s) as RL. rewrite Er, !app_length, repeat_length in RL. pose proof (encode_length t). unfold s0. cbn [p_doc set_eaten]. lia. }
  assert (D0 : in_doc s0) by exact H. assert (R0 : rem s0 = utf8_encode t ++ repeat 32%N (S j) ++ 35%N :: q) by exact Er.
  assert (LT : List.length t < loop_fuel s0) by lia.
  destruct (plain_last L inner _ (List.length t) t (loop_fuel s0) [] s0 (le_n _) LT D0 Hv Hp R0) as (n' & v0 & t0 & E & EE & K1 & K2 & K3 & K4 & K5 & K6 & K7 & K8 & K9).
  rewrite EE. set (s1 := set_pos _ _) in *. cbn [app] in K1. destruct n' as [|n']; [lia|].
  assert (ST : starts_in (plain_patt inner) (repeat 32%N (S j) ++ 35%N :: q)).
  { cbn [repeat app]. change (In 32%N (plain_patt inner)). apply is_in_spec. rewrite in_patt. cbn. now rewrite !orb_true_r. }
  rewrite (seg_skip n' L inner v0 false s1 t0 [] _ K6 K4 K3 eq_refl eq_refl ST K5), K1.
  set (s2 := set_pos (p_pos s1 + blen t0) s1).
  assert (D2 : in_doc s2) by (apply in_doc_add; [rewrite K5, app_length; lia|exact K6]).
  assert (R2 : rem s2 = repeat 32%N (S j) ++ 35%N :: q) by (unfold s2; rewrite rem_add, K5; apply skipn_app_len).
  destruct (plain_spaces L inner q j (S n') t s2 ltac:(lia) D2 R2) as (x & tb & E' & EE' & Hx & Htb).
  rewrite EE', (trim_end_app t x Hx), Ht. destruct t as [|y t]; [congruence|]. unfold ret.
  exists tb. split; [|exact Htb].
  f_equal. unfold s2, s1, s0. apply st_ext; try reflexivity. cbn [p_pos set_pos set_eaten set_indent]. lia.
Qed.

(** blanks behind the last part of a word *)
Lemma blank_parted inner w rest : Forall blank w -> starts_in (plain_patt inner) rest -> exists a tl, w ++ rest = utf8_encode a ++ tl /\ valid a
  /\ forallb (not_in (plain_patt inner)) a = true /\ starts_in (plain_patt inner) tl.
Proof.
  intros Hw Hr. induction Hw as [|c w [->|[->| ->]] Hw IHw]; [exists [], rest; repeat split; exact Hr|..].
  - exists [], (32%N :: w ++ rest). split; [reflexivity|]. split; [reflexivity|]. split; [reflexivity|].
    change (In 32%N (plain_patt inner)). apply is_in_spec. rewrite in_patt. cbn. now rewrite !orb_true_r.
  - destruct IHw as (a & tl & E & A1 & A2 & A3). exists (9%N :: a), tl. rewrite encode_cons_ascii by reflexivity. cbn [app]. rewrite E. split; [reflexivity|].
    split; [apply valid_cons; split; [reflexivity|exact A1]|]. split; [cbn [forallb]; rewrite A2; destruct inner; reflexivity|exact A3].
  - destruct IHw as (a & tl & E & A1 & A2 & A3). exists (12%N :: a), tl. rewrite encode_cons_ascii by reflexivity. cbn [app]. rewrite E. split; [reflexivity|].
    split; [apply valid_cons; split; [reflexivity|exact A1]|]. split; [cbn [forallb]; rewrite A2; destruct inner; reflexivity|exact A3].
Qed.
Definition parted (inner : bool) (l : bytes) : Prop := exists a tl, l = utf8_encode a ++ tl /\ valid a
  /\ forallb (not_in (plain_patt inner)) a = true /\ starts_in (plain_patt inner) tl.
Lemma blanks_parted inner w rest : Forall blank w -> parted inner rest -> parted inner (w ++ rest).
Proof.
  intros Hw (a & tl & -> & A1 & A2 & A3). induction Hw as [|c w Hc Hw IHw]; [exists a, tl; auto|]. cbn [app]. destruct (N.eq_dec c 32) as [->|Nc].
  - exists [], (32%N :: w ++ utf8_encode a ++ tl). split; [reflexivity|]. split; [reflexivity|]. split; [reflexivity|].
    change (In 32%N (plain_patt inner)). apply is_in_spec. rewrite in_patt. cbn. now rewrite !orb_true_r.
  - destruct IHw as (b & tl' & -> & B1 & B2 & B3). exists (c :: b), tl'. destruct Hc as [->|[-> | ->]]; [congruence| |];
      (rewrite encode_cons_ascii by reflexivity; split; [reflexivity|]; split; [apply valid_cons; split; [reflexivity|exact B1]|]; split; [cbn [forallb]; rewrite B2; destruct inner; reflexivity|exact B3]).
Qed.
Lemma blanks_skip L inner rest : parted inner rest -> (match rest with x :: _ => x <> 35%N | [] => True end) -> forall w n v s, List.length w < n -> in_doc s -> Forall blank w ->
  rem s = w ++ rest ->
  exists n' x E, plain_loop n L inner v false s = plain_loop n' L inner (v ++ x) false (set_pos (p_pos s + List.length w) (set_eaten E s))
    /\ forallb is_uni_ws x = true /\ n <= n' + List.length w /\ 0 < n'.
Proof.
  intros HP Hr. induction w as [|c w IH]; intros n v s Hn H Hw R; (destruct n as [|n]; [lia|]).
  - exists (S n), [], (p_eaten s). rewrite app_nil_r. split; [|cbn; repeat split; lia]. f_equal. cbn [List.length]. rewrite Nat.add_0_r. destruct s; reflexivity.
  - inversion Hw as [|? ? Hc Hw']; subst. cbn [app List.length] in *. pose proof (blanks_parted inner w rest Hw' HP) as PW.
    destruct (N.eq_dec c 32) as [->|Nc].
    + assert (ST : starts_in (plain_patt inner) (32%N :: w ++ rest)).
      { change (In 32%N (plain_patt inner)). apply is_in_spec. rewrite in_patt. cbn. now rewrite !orb_true_r. }
      destruct (plain_step n L inner v false s [] _ H eq_refl eq_refl ST R) as (E1 & R1 & D1). cbn [utf8_encode flat_map List.length] in *.
      rewrite E1, app_nil_r. rewrite Nat.add_0_r in *. set (s1 := at_pos (p_pos s) s) in *. assert (A1 : AT s1) by reflexivity.
      rewrite (plain_rest_colon n L inner v s1 32%N _ D1 A1 R1); [|auto|].
      2:{ rewrite R1. destruct w as [|d w]; cbn [app].
        - destruct rest as [|d q]; [reflexivity|now apply stop_space].
        - apply stop_space. inversion Hw' as [|? ? Hd _]; subst. destruct Hd as [->|[->| ->]]; discriminate. }
      set (s2 := set_pos (p_pos s1 + 1) s1).
      destruct (IH n (v ++ [32%N]) s2 ltac:(lia)) as (n' & x & E & EE & Hx & Hn1 & Hn2); [| exact Hw'| |].
      * apply in_doc_add; [rewrite R1; cbn; lia|exact D1].
      * unfold s2. rewrite rem_add, R1. reflexivity.
      * exists n', ([32%N] ++ x), E. rewrite EE. split; [|split; [exact Hx|lia]]. rewrite <- app_assoc. f_equal. unfold s2, s1. apply st_ext; try reflexivity. cbn. lia.
    + assert (C : is_uni_ws c = true /\ encode_char c = [c] /\ valid [c] /\ forallb (not_in (plain_patt inner)) [c] = true).
      { destruct Hc as [->|[-> | ->]]; [congruence| |]; (repeat split; try reflexivity; destruct inner; reflexivity). }
      destruct C as (C1 & C2 & C3 & C4). assert (EC : utf8_encode [c] = [c]) by (cbn [utf8_encode flat_map]; now rewrite C2).
      destruct PW as (a & tl & Ea & B1 & B2 & B3).
      rewrite (seg_skip n L inner v false s [c] a tl H C3 C4 B1 B2 B3) by (rewrite R, EC, Ea; reflexivity).
      rewrite EC. cbn [List.length]. set (s1 := set_pos (p_pos s + 1) s).
      destruct (IH (S n) (v ++ [c]) s1 ltac:(lia)) as (n' & x & E & EE & Hx & Hn1 & Hn2); [| exact Hw'| |].
      * apply in_doc_add; [rewrite R; cbn; lia|exact H].
      * unfold s1. rewrite rem_add, R. reflexivity.
      * exists n', ([c] ++ x), E. rewrite EE. split; [|split; [cbn [app forallb]; now rewrite C1, Hx|lia]]. rewrite <- app_assoc. f_equal. unfold s1. apply st_ext; try reflexivity. cbn. lia.
Qed.
Lemma patt_parted inner l : starts_in (plain_patt inner) l -> parted inner l.
Proof. intros H. exists [], l. repeat split. exact H. Qed.
Lemma ends_clear inner d l : ends inner d l -> match l with x :: _ => x <> 35%N | [] => True end.
Proof.
  intros He. destruct l as [|c q]; [exact Logic.I|]. intros ->. pose proof (ends_patt _ _ _ He) as K. change (In 35%N (plain_patt inner)) in K. apply is_in_spec in K. rewrite in_patt in K. destruct inner; discriminate.
Qed.
Lemma blanks_run L inner rest w n v s : List.length w < n -> in_doc s -> Forall blank w ->
  rem s = w ++ rest -> ends inner (depth (p_indent s) L) rest ->
  exists x tb E, plain_loop n L inner v false s = (ROk (v ++ x), set_pos (p_pos s + List.length w) (set_eaten E (set_indent tb s)))
    /\ forallb is_uni_ws x = true /\ tb_ok L (p_indent s) tb.
Proof.
  intros Hn H Hw R He. destruct (blanks_skip L inner rest (patt_parted _ _ (ends_patt _ _ _ He)) (ends_clear _ _ _ He) w n v s Hn H Hw R) as (n' & x & E & EE & Hx & N1 & N2).
  rewrite EE. set (s1 := set_pos _ _).
  assert (D1 : in_doc s1) by (unfold s1; change (p_pos s) with (p_pos (set_eaten E s)); apply in_doc_add; [change (rem (set_eaten E s)) with (rem s); rewrite R, app_length; lia|exact H]).
  assert (R1 : rem s1 = utf8_encode [] ++ rest) by (unfold s1; change (p_pos s) with (p_pos (set_eaten E s)); rewrite rem_add; change (rem (set_eaten E s)) with (rem s); rewrite R; apply skipn_app_len).
  destruct (plain_run L inner rest 0 [] n' (v ++ x) s1 (le_n _) N2 D1 eq_refl eq_refl R1 He) as (x' & tb & E' & -> & Hx' & Htb).
  exists (x ++ x'), tb, E'. split; [|split; [now rewrite forallb_app, Hx, Hx'|exact Htb]]. cbn [app]. rewrite <- app_assoc. f_equal.
  unfold s1. apply st_ext; try reflexivity. cbn. lia.
Qed.
Lemma word_trail L inner s t w rest : in_doc s -> valid t -> t <> [] -> trim_end t = t -> Forall blank w ->
  plainb inner true t = true -> rem s = utf8_encode t ++ w ++ rest -> ends inner (depth (p_indent s) L) rest ->
  exists tb, string_plain L inner s = (ROk t, set_pos (p_pos s + blen t + List.length w) (set_indent tb s)) /\ tb_ok L (p_indent s) tb.
Proof.
  intros H Hv Hn Ht Hw Hp Er He. unfold string_plain, context. set (s0 := set_eaten (p_pos s) s).
  unfold bind, gets.
  assert (LN : List.length t + List.length w < loop_fuel s0).
  { unfold loop_fuel. pose proof (rem_length s) as RL. rewrite Er, !app_length in RL. pose proof (encode_length t). unfold s0. cbn [p_doc set_eaten]. lia. }
  assert (D0 : in_doc s0) by exact H. assert (R0 : rem s0 = utf8_encode t ++ w ++ rest) by exact Er.
  assert (LT : List.length t < loop_fuel s0) by lia.
  destruct (plain_last L inner _ (List.length t) t (loop_fuel s0) [] s0 (le_n _) LT D0 Hv Hp R0) as (n' & v0 & t0 & E & EE & K1 & K2 & K3 & K4 & K5 & K6 & K7 & K8 & K9).
  rewrite EE. set (s1 := set_pos _ _) in *. cbn [app] in K1. destruct n' as [|n']; [lia|].
  destruct (blank_parted inner w rest Hw (ends_patt _ _ _ He)) as (a & tl & Ea & A1 & A2 & A3).
  rewrite (seg_skip n' L inner v0 false s1 t0 a tl K6 K4 K3 A1 A2 A3) by (rewrite K5, Ea; reflexivity). rewrite K1.
  set (s2 := set_pos (p_pos s1 + blen t0) s1).
  assert (D2 : in_doc s2) by (apply in_doc_add; [rewrite K5, app_length; lia|exact K6]).
  assert (R2 : rem s2 = w ++ rest) by (unfold s2; rewrite rem_add, K5; apply skipn_app_len).
  destruct (blanks_run L inner rest w (S n') t s2 ltac:(lia) D2 Hw R2 He) as (x & tb & E' & EE' & Hx & Htb).
  rewrite EE', (trim_end_app t x Hx), Ht. destruct t as [|y t]; [congruence|]. unfold ret.
  exists tb. split; [|exact Htb].
  f_equal. unfold s2, s1, s0. apply st_ext; try reflexivity. cbn [p_pos set_pos set_eaten set_indent]. lia.
Qed.

Lemma word_trail_ws L s t w w' c r : in_doc s -> valid t -> t <> [] -> trim_end t = t -> Forall blank w ->
  plainb true true t = true -> rem s = utf8_encode t ++ w ++ w' ++ c :: r -> wsl w' -> closer c ->
  0 < depth (p_indent s) L ->
  exists k tb, string_plain L true s = (ROk t, set_pos (p_pos s + blen t + List.length w + k) (set_indent tb s))
    /\ k <= List.length w' /\ tb_ok L (p_indent s) tb.
Proof.
  intros H Hv Hn Ht Hb Hp Er Hw Hc Hd. unfold string_plain, context. set (s0 := set_eaten (p_pos s) s).
  unfold bind, gets.
  assert (LN : List.length t + List.length w + List.length w' < loop_fuel s0).
  { unfold loop_fuel. pose proof (rem_length s) as RL. rewrite Er, !app_length in RL. pose proof (encode_length t). unfold s0. cbn [p_doc set_eaten]. lia. }
  assert (D0 : in_doc s0) by exact H. assert (R0 : rem s0 = utf8_encode t ++ w ++ w' ++ c :: r) by exact Er.
  assert (LT : List.length t < loop_fuel s0) by lia.
  destruct (plain_last L true _ (List.length t) t (loop_fuel s0) [] s0 (le_n _) LT D0 Hv Hp R0) as (n' & v0 & t0 & E & EE & K1 & K2 & K3 & K4 & K5 & K6 & K7 & K8 & K9).
  rewrite EE. set (s1 := set_pos _ _) in *. cbn [app] in K1. destruct n' as [|n']; [lia|].
  assert (PW : parted true (w' ++ c :: r)) by exact (ws_segment true w' c r Hw Hc eq_refl).
  destruct (blanks_parted true w _ Hb PW) as (a & tl & Ea & A1 & A2 & A3).
  rewrite (seg_skip n' L true v0 false s1 t0 a tl K6 K4 K3 A1 A2 A3) by (rewrite K5, Ea; reflexivity). rewrite K1.
  set (s2 := set_pos (p_pos s1 + blen t0) s1).
  assert (D2 : in_doc s2) by (apply in_doc_add; [rewrite K5, app_length; lia|exact K6]).
  assert (R2 : rem s2 = w ++ w' ++ c :: r) by (unfold s2; rewrite rem_add, K5; apply skipn_app_len).
  destruct (blanks_skip L true (w' ++ c :: r) PW) with (w := w) (n := S n') (v := t) (s := s2) as (n2 & x & E2 & EE2 & Hx & N1 & N2); try assumption; [|lia|].
  { destruct w' as [|z w']; cbn [app]; [destruct Hc as [<-|[<-|[<-|[]]]]; discriminate|]. apply wsl_cons in Hw as [Hz _]. apply ascii_ws_in in Hz. intros ->. simpl in Hz. intuition discriminate. }
  rewrite EE2. set (s3 := set_pos _ _).
  assert (D3 : in_doc s3) by (unfold s3; change (p_pos s2) with (p_pos (set_eaten E2 s2)); apply in_doc_add; [change (rem (set_eaten E2 s2)) with (rem s2); rewrite R2, app_length; lia|exact D2]).
  assert (R3 : rem s3 = w' ++ c :: r) by (unfold s3; change (p_pos s2) with (p_pos (set_eaten E2 s2)); rewrite rem_add; change (rem (set_eaten E2 s2)) with (rem s2); rewrite R2; apply skipn_app_len).
  destruct (plain_ws L (List.length w') w' n2 (t ++ x) false s3 c r (le_n _) ltac:(lia) D3 Hw Hc R3 Hd) as (v' & k & s' & EE' & T & Hk & tb & E' & -> & Htb).
  rewrite EE', T, (trim_end_app t x Hx), Ht. destruct t as [|y t]; [congruence|]. unfold ret.
  exists k, tb. split; [|split; [exact Hk|exact Htb]].
  f_equal. unfold s3, s2, s1, s0. apply st_ext; try reflexivity. cbn [p_pos set_pos set_eaten set_indent]. lia.
Qed.

Lemma word_plainb fl t : word fl t -> valid t /\ t <> [] /\ trim_end t = t /\ plainb fl true t = true /\ (forall a c, t = a ++ [c] -> is_uni_ws c = false).
Proof.
  intros (P & _ & _ & F). destruct P as [Hv (c0 & r0 & Et & Hc0 & Hdash) Hn Hk Hke Hcm Htr Hmk].
  split; [exact Hv|]. split; [rewrite Et; discriminate|]. split; [now apply PropScalar.trim_end_last|]. split; [|exact Htr].
  assert (X : plainb false true t = true).
  { apply plainb_line; try assumption. intros _. rewrite Et. intros K. apply Hc0. simpl in K |- *. tauto. }
  destruct fl; [|exact X]. specialize (F eq_refl). clear - X F.
  assert (G : forall first, (forall c, In c (lit "[]{},") -> ~ In c t) -> plainb false first t = true -> plainb true first t = true); [|now apply G].
  clear F X. induction t as [|c t IH]; intros first F X; [reflexivity|]. cbn [plainb] in *. apply andb_true_iff in X as [X1 X2].
  apply andb_true_iff. split; [|apply IH; [intros x Hx K; exact (F x Hx (or_intror K))|exact X2]].
  destruct (is_in [10; 13]%N c); [discriminate|]. destruct (is_in (lit "[]{}") c) eqn:E.
  { apply is_in_spec in E. exfalso. apply (F c); [simpl in E |- *; tauto|now left]. }
  destruct (N.eqb_spec c 44) as [->|]; [|exact X1]. exfalso. apply (F 44%N); [simpl; tauto|now left].
Qed.
Lemma word_first fl t l : word fl t -> match utf8_encode t ++ l with x :: _ => ~ In x [42; 39; 34]%N | [] => True end.
Proof.
  intros (P & _). destruct (word_head t P) as (b & rb & Eb & Hb0). rewrite Eb. cbn [app]. intros K. apply Hb0. simpl in K |- *. tauto.
Qed.
(** a word with blanks behind it *)
Definition worded (fl : bool) (t : str) (y : yaml) : Prop := exists t0 w, t = t0 ++ w /\ word fl t0 /\ Forall blank w /\ meaning t0 y.
Lemma blank_encode w : Forall blank w -> utf8_encode w = w.
Proof. intros H. induction H as [|c w Hc Hw IH]; [reflexivity|]. rewrite encode_cons_ascii by (destruct Hc as [->|[->| ->]]; reflexivity). now rewrite IH. Qed.
Lemma blank_aw w l : Forall blank w -> aw l -> aw (w ++ l).
Proof. intros [|c w' Hc _] Hl; [exact Hl|]. cbn [app]. unfold aw, after_word. destruct Hc as [->|[->| ->]]; simpl; tauto. Qed.
Lemma term_word n L fl s t l y s' : in_doc s -> AT s -> word fl t -> meaning t y -> rem s = utf8_encode t ++ l -> aw l ->
  string_plain L fl s = (ROk t, s') -> scalar_term (S n) L fl s = (ROk y, s').
Proof.
  intros H A0 W M R Hl E. destruct (word_plainb fl t W) as (_ & _ & _ & _ & Htr). pose proof W as (P & _ & Nn & _).
  assert (NN : nonum (rem s)).
  { apply not_number_nonum. rewrite R. now apply word_not_number. }
  rewrite (term_nonum n L fl s H A0 NN). unfold term2.
  pose proof (word_first fl t l W) as Hd. rewrite <- R in Hd.
  assert (Hx : forall c, In c [42; 39; 34]%N -> match rem s with x :: _ => x <> c | [] => True end).
  { intros c Hc. destruct (rem s); [exact Logic.I|]. intros ->. now apply Hd. }
  unfold bind at 1. unfold anchor_use. rewrite (ok_miss (chr "*") _ s H A0) by (apply Hx; simpl; tauto).
  unfold bind at 1. rewrite (quoted_miss 39%N _ s H A0) by (apply Hx; simpl; tauto).
  unfold bind at 1. rewrite (quoted_miss 34%N _ s H A0) by (apply Hx; simpl; tauto).
  unfold bind at 1. rewrite (ok_eq _ _ _ E). unfold ret. f_equal. f_equal. eapply meaning_unique; [apply plain_value_meaning|exact M].
Qed.

(** ** One-line scalars *)
(** no blanks behind them *)
Lemma word_atom cyclic fl e t y : word fl t -> meaning t y -> atom cyclic fl e y t Done.
Proof. intros W M. rewrite <- (app_nil_r t) at 1. apply AWord; auto. Qed.
Lemma int_atom cyclic fl e t : int_literal t -> atom cyclic fl e (YInt t) t Num.
Proof. intros H. pose proof (AInt cyclic fl e t 0 H) as K. cbn [indent repeat] in K. now rewrite app_nil_r in K. Qed.
Lemma float_atom cyclic fl e t v : float_literal t -> without_dot0 t v -> atom cyclic fl e (YFloat v) t Num.
Proof. intros H Hv. pose proof (AFloat cyclic fl e t v 0 H Hv) as K. cbn [indent repeat] in K. now rewrite app_nil_r in K. Qed.
Lemma sci_atom cyclic fl e t : sci_literal t -> atom cyclic fl e (YFloat t) t Num.
Proof. intros H. pose proof (ASci cyclic fl e t 0 H) as K. cbn [indent repeat] in K. now rewrite app_nil_r in K. Qed.

Section Atoms.
Variable eol : str.
Hypothesis eol_ok : eol = [10%N] \/ eol = [13; 10]%N.
Variable cyclic : bool.
Variable B : st.
Hypothesis B_cyclic : l_cyclic B = cyclic.
Hypothesis B_doc : nth_error (l_anchors B) (l_doc_ind B) <> None.

Lemma quote_encode b : utf8_encode (quote b) = 34%N :: utf8_encode (json_str b) ++ [34%N].
Proof. unfold quote. fold (json_str b). change ([34%N] ++ ?x) with (34%N :: x). rewrite encode_cons_ascii by lia. now rewrite encode_app. Qed.
Lemma single_encode b : utf8_encode (lit "'" ++ dq b ++ lit "'") = 39%N :: utf8_encode (dq b) ++ [39%N].
Proof. rewrite !encode_app. reflexivity. Qed.
Lemma quote_reads n L fl b o tb e rest : str_ok b -> at_ B o (utf8_encode (quote b) ++ rest) ->
  scalar_term (S n) L fl (mk B o o tb e) = (ROk (YStr b), mk B (o + blen (quote b)) o tb e).
Proof.
  intros (Hv & Hl) H. rewrite quote_encode in *. cbn [app] in H. rewrite <- app_assoc in H.
  rewrite (term_double n L fl (mk B o o tb e) (json_str b) rest (at_in _ _ _ _ _ _ H) (mk_AT _ _ _ _) (json_valid b Hv) (json_qok b Hl) (at_rem _ _ _ _ _ _ H)), json_escape.
  f_equal. rewrite set_pos_mk. apply mk_eq; [|reflexivity]. cbn [p_pos mk List.length]. rewrite app_length. cbn [List.length]. lia.
Qed.
(** on several lines *)
Lemma term_double_lines n L fl s br t b rest : line_break br -> in_doc s -> AT s -> folded_double br t b ->
  rem s = 34%N :: utf8_encode t ++ 34%N :: rest ->
  scalar_term (S n) L fl s = (ROk (YStr b), set_pos (p_pos s + List.length (utf8_encode t) + 2) s).
Proof.
  intros Hbr H A0 F Er. rewrite term_nonum; [|assumption..|apply no_num_head_nonum; now rewrite Er].
  unfold term2. unfold bind at 1, anchor_use. rewrite ok_miss by (try assumption; rewrite Er; discriminate).
  unfold bind at 1. rewrite quoted_miss by (try assumption; rewrite Er; discriminate).
  unfold bind at 1. unfold ok. destruct (double_folded br s t b rest Hbr H F Er) as (V & E & ->). now rewrite <- E.
Qed.
Lemma term_single_lines n L fl s br t b rest : line_break br -> in_doc s -> AT s -> folded_single br t b ->
  ~ (exists r, rest = 39%N :: r) -> rem s = 39%N :: utf8_encode t ++ 39%N :: rest ->
  scalar_term (S n) L fl s = (ROk (YStr b), set_pos (p_pos s + List.length (utf8_encode t) + 2) s).
Proof.
  intros Hbr H A0 F Hr Er. rewrite term_nonum; [|assumption..|apply no_num_head_nonum; now rewrite Er].
  unfold term2. unfold bind at 1, anchor_use. rewrite ok_miss by (try assumption; rewrite Er; discriminate).
  unfold bind at 1. unfold ok. now rewrite (single_folded br s t b rest Hbr H F Hr Er).
Qed.
(** other than words and numbers *)
Lemma done_reads n L fl e y t o tb l : atom cyclic fl e y t Done -> (forall z, ~ worded fl t z) ->
  at_ B o (utf8_encode t ++ l) -> (match l with x :: _ => is_idc x = false /\ x <> 39%N | [] => True end) ->
  scalar_term (S n) L fl (mk B o o tb e) = (ROk y, mk B (o + blen t) o tb e).
Proof.
  intros A NW H Hx. inversion A as [t' w' y' W Hw M E1 E2| | | |b Hb E1 E2|b Hv Hn1 Hn2 E1 E2|br t' b Hbr Hf E1 E2|br t' b Hbr Hf E1 E2|a nd Ha Hl E1 E2]; subst; [exfalso; eapply NW; exists t', w'; eauto| | | | |].
  - now apply quote_reads with l.
  - rewrite single_encode in *. cbn [app] in H. rewrite <- app_assoc in H.
    rewrite (term_single n L fl (mk B o o tb e) b l (at_in _ _ _ _ _ _ H) (mk_AT _ _ _ _) Hv).
    + f_equal. rewrite set_pos_mk. apply mk_eq; [|reflexivity]. cbn [p_pos mk List.length]. rewrite app_length. cbn [List.length]. lia.
    + apply forallb_forall. intros z Hz. apply not_in_spec. intros [<-|[<-|[]]]; contradiction.
    + intros [r ->]. destruct Hx as [_ Hx]. congruence.
    + apply (at_rem _ _ _ _ _ _ H).
  - assert (EE : utf8_encode ([34%N] ++ t' ++ [34%N]) = 34%N :: utf8_encode t' ++ [34%N]) by (rewrite !encode_app; reflexivity).
    rewrite EE in *. cbn [app] in H. rewrite <- app_assoc in H.
    rewrite (term_double_lines n L fl (mk B o o tb e) br t' b l Hbr (at_in _ _ _ _ _ _ H) (mk_AT _ _ _ _) Hf (at_rem _ _ _ _ _ _ H)).
    f_equal. rewrite set_pos_mk. apply mk_eq; [|reflexivity]. cbn [p_pos mk List.length]. rewrite app_length. cbn [List.length]. lia.
  - assert (EE : utf8_encode (lit "'" ++ t' ++ lit "'") = 39%N :: utf8_encode t' ++ [39%N]) by (rewrite !encode_app; reflexivity).
    rewrite EE in *. cbn [app] in H. rewrite <- app_assoc in H.
    rewrite (term_single_lines n L fl (mk B o o tb e) br t' b l Hbr (at_in _ _ _ _ _ _ H) (mk_AT _ _ _ _) Hf).
    + f_equal. rewrite set_pos_mk. apply mk_eq; [|reflexivity]. cbn [p_pos mk List.length]. rewrite app_length. cbn [List.length]. lia.
    + intros [r ->]. destruct Hx as [_ Hx]. congruence.
    + apply (at_rem _ _ _ _ _ _ H).
  - rewrite encode_app, (name_encode a Ha) in *. cbn [utf8_encode flat_map app] in *. change (encode_char (chr "*")) with [42%N] in *. cbn [app] in *.
    assert (NA : name_at a l).
    { split; [exact Ha|]. destruct l as [|x q]; [exact Logic.I|]. destruct Hx as [Hx _]. unfold is_idc in Hx. apply orb_false_iff in Hx as [X1 X2]. intros [K|K]; [unfold is_alnum in *; congruence|subst x; discriminate]. }
    rewrite (term_alias n L fl (mk B o o tb e) a l (at_in _ _ _ _ _ _ H) eq_refl (at_rem _ _ _ _ _ _ H) NA).
    unfold alias_value, alias_of. change (l_cyclic (set_pos ?p (mk B o o tb e))) with (l_cyclic B). destruct (l_cyclic B) eqn:Cy.
    + f_equal. rewrite set_pos_mk. apply mk_eq; [|reflexivity]. cbn [p_pos mk List.length]. lia.
    + change (set_pos (p_pos (mk B o o tb e) + 1 + List.length a) (mk B o o tb e)) with (mk B (o + 1 + List.length a) o tb e).
      rewrite (mk_anchors B B_doc), lookup_table, (Hl eq_refl). f_equal. apply mk_eq; [|reflexivity]. cbn [List.length]. lia.
Qed.
Lemma spaces_encode k : utf8_encode (repeat 32%N k) = repeat 32%N k.
Proof. induction k as [|k IH]; [reflexivity|]. change (repeat 32%N (S k)) with (32%N :: repeat 32%N k). now rewrite encode_cons_ascii, IH by lia. Qed.
Lemma num_text n L fl e y t o tb z x q : (y = YInt t /\ int_literal t \/ (exists v, y = YFloat v /\ float_literal t /\ without_dot0 t v) \/ y = YFloat t /\ sci_literal t) ->
  at_ B o (utf8_encode t ++ repeat 32%N z ++ x :: q) -> In x [10; 13; 58; 44; 93; 125]%N ->
  scalar_term (S n) L fl (mk B o o tb e) = (ROk y, mk B (o + blen t + z) o tb e).
Proof.
  intros A H Hx. set (s := mk B o o tb e). assert (I0 : in_doc s) by exact (at_in _ _ _ _ _ _ H).
  assert (A0 : AT s) by reflexivity. pose proof (at_rem B o _ o tb e H) as R. fold s in R.
  assert (WS : Forall blank (repeat 32%N z)) by (apply Forall_forall; intros c Hc; apply repeat_spec in Hc as ->; unfold blank; auto).
  assert (BX : bound_char x /\ ~ blank x).
  { unfold bound_char, blank. simpl in Hx |- *. destruct Hx as [<-|[<-|[<-|[<-|[<-|[<-|[]]]]]]]; (split; [tauto|lia]). }
  assert (FE : float_end (repeat 32%N z) (x :: q)).
  { split; [exact WS|]. split; [intros c r [= <- <-]; tauto|]. destruct z as [|z]; [left; split; [reflexivity|exists x, q; tauto]|].
    right. exists (repeat 32%N z). rewrite <- repeat_cons. reflexivity. }
  destruct A as [(-> & Ht)|[(v & -> & Ht & Hv)|(-> & Ht)]].
  - rewrite (literal_ascii t (or_introl Ht)) in *. rewrite (term_int n L fl s t (repeat 32%N z) (x :: q) I0 A0 Ht); [rewrite repeat_length; reflexivity| |exact R].
    split; [exact WS|]. exists x, q. tauto.
  - rewrite (literal_ascii t (or_intror (or_introl Ht))) in *. cbn [scalar_term].
    assert (E : float s = (ROk v, set_pos (p_pos s + List.length t + List.length (repeat 32%N z)) s)).
    { apply (proj1 (C09_float_language s I0 A0)). exists t, (repeat 32%N z), (x :: q). split; [exact R|]. auto. }
    unfold bind at 1. rewrite (ok_eq _ _ _ E). unfold ret. now rewrite repeat_length.
  - rewrite (literal_ascii t (or_intror (or_intror Ht))) in *. cbn [scalar_term].
    assert (E : sci_float s = (ROk t, set_pos (p_pos s + List.length t + List.length (repeat 32%N z)) s)).
    { apply (proj1 (C09_sci_language s I0 A0)). exists (repeat 32%N z), (x :: q). split; [exact R|]. auto. }
    assert (F : float_f (rem s) = None).
    { rewrite R. destruct Ht as [neg ds e' sg es Hne Hd Hx' Hsg Hes Hf]. clear - Hne Hd Hx'. set (rest := repeat 32%N z ++ x :: q). clearbody rest.
      assert (A : (sign neg ++ ds ++ e' :: sg ++ es) ++ rest = (sign neg ++ ds) ++ e' :: (sg ++ es) ++ rest)
        by (rewrite <- !app_assoc; cbn [app]; now rewrite <- !app_assoc).
      rewrite A. unfold float_f, float_len. cbv zeta. pose proof (sign_dec neg ds Hne Hd) as HD.
      assert (Ee : is_digit e' = false) by (destruct Hx' as [->| ->]; reflexivity).
      rewrite (num_len_dec _ _ HD) by exact Ee. rewrite skipn_app_len.
      replace (N.eqb e' 46) with false by (destruct Hx' as [->| ->]; reflexivity).
      destruct (Nat.eqb (List.length (sign neg ++ ds)) 0); reflexivity. }
    unfold bind at 1. rewrite (ok_eq _ _ _ (float_exec s I0 A0)), F.
    unfold bind at 1. rewrite (ok_eq _ _ _ E). unfold ret. now rewrite repeat_length.
Qed.
Lemma num_reads n L fl e y t o tb z x q : atom cyclic fl e y t Num ->
  at_ B o (utf8_encode t ++ repeat 32%N z ++ x :: q) -> In x [10; 13; 58; 44; 93; 125]%N ->
  scalar_term (S n) L fl (mk B o o tb e) = (ROk y, mk B (o + blen t + z) o tb e).
Proof.
  intros A H Hx. assert (K : exists t' z', t = t' ++ indent z' /\ (y = YInt t' /\ int_literal t' \/ (exists v, y = YFloat v /\ float_literal t' /\ without_dot0 t' v) \/ y = YFloat t' /\ sci_literal t')).
  { inversion A; subst; eauto 10. }
  destruct K as (t' & z' & -> & K). unfold indent in *. rewrite encode_app, spaces_encode in *.
  replace ((utf8_encode t' ++ repeat 32%N z') ++ repeat 32%N z ++ x :: q) with (utf8_encode t' ++ repeat 32%N (z' + z) ++ x :: q) in H by (rewrite repeat_app, <- !app_assoc; reflexivity).
  rewrite (num_text n L fl e y t' o tb (z' + z) x q K H Hx). f_equal. apply mk_eq; [|reflexivity]. rewrite app_length, repeat_length. lia.
Qed.
(** which kind *)
Lemma atom_kind fl e y t f : atom cyclic fl e y t f -> f = Num \/ f = Done /\ (worded fl t y \/ forall z, ~ worded fl t z).
Proof.
  intros A. assert (Q : forall c r, In c [42; 39; 34]%N -> t = c :: r -> forall z, ~ worded fl t z).
  { intros c r Hc E z (t0 & w & Et & W & _). destruct t0 as [|x t0]; [destruct (word_plainb fl [] W) as (_ & K & _); congruence|].
    rewrite E in Et. injection Et as -> _. pose proof (word_first fl _ [] W) as K. rewrite encode_cons_ascii in K by (simpl in Hc; intuition lia). exact (K Hc). }
  destruct A as [t w y W Hw M|t z Ht|t v z Ht Hv|t z Ht|b Hb|b Hv H1 H2|br t b Hbr Hf|br t b Hbr Hf|a n Ha Hl].
  - right. split; [reflexivity|]. left. exists t, w. auto.
  - now left.
  - now left.
  - now left.
  - right. split; [reflexivity|]. right. eapply (Q 34%N); [simpl; auto|reflexivity].
  - right. split; [reflexivity|]. right. eapply (Q 39%N); [simpl; auto|reflexivity].
  - right. split; [reflexivity|]. right. eapply (Q 34%N); [simpl; auto|reflexivity].
  - right. split; [reflexivity|]. right. eapply (Q 39%N); [simpl; auto|reflexivity].
  - right. split; [reflexivity|]. right. eapply (Q 42%N); [simpl; auto|reflexivity].
Qed.
Lemma after_tb L k o tb e s' : after L k (mk B o o tb e) s' -> exists tb', s' = mk B (o + k) o tb' e /\ tb_ok L tb tb'.
Proof. intros (tb' & -> & K). exists tb'. split; [reflexivity|exact K]. Qed.

Lemma word_reads L fl e y t o tb l : worded fl t y -> at_ B o (utf8_encode t ++ l) -> aw l -> ends fl (depth tb L) l ->
  exists tb', tb_ok L tb tb' /\ reads 1 L fl (mk B o o tb e) y (mk B (o + blen t) o tb' e).
Proof.
  intros (t0 & w & -> & W & Hw & M) H Hl He. destruct (word_plainb fl t0 W) as (V1 & V2 & V3 & V4 & _).
  rewrite encode_app, (blank_encode w Hw) in *. rewrite <- app_assoc in H.
  destruct (word_trail L fl (mk B o o tb e) t0 w l (at_in _ _ _ _ _ _ H) V1 V2 V3 Hw V4 (at_rem _ _ _ _ _ _ H) He) as (tb' & E & K).
  exists tb'. split; [exact K|]. intros n Hn. destruct n as [|n]; [lia|].
  rewrite (term_word n L fl _ t0 _ y _ (at_in _ _ _ _ _ _ H) (mk_AT _ _ _ _) W M (at_rem _ _ _ _ _ _ H) (blank_aw w l Hw Hl) E).
  f_equal. change (mk B (o + blen t0 + List.length w) o tb' e = mk B (o + List.length (utf8_encode t0 ++ w)) o tb' e). apply mk_eq; [|reflexivity]. rewrite app_length. lia.
Qed.

Lemma nl_len_pos x q : In x [10; 13]%N -> nl_len (x :: q) <> 0.
Proof.
  intros Hx. rewrite nl_len_alt. unfold nl_len'. destruct (starts_with [13; 10]%N (x :: q)); [discriminate|]. destruct (starts_with [10; 13]%N (x :: q)); [discriminate|].
  destruct Hx as [<-|[<-|[]]]; discriminate.
Qed.
(** in front of a colon *)
Lemma atom_colon L fl e y t f o tb x q : atom cyclic fl e y t f -> at_ B o (utf8_encode t ++ 58%N :: x :: q) -> In x [32; 10; 13]%N ->
  exists tb', tb_ok L tb tb' /\ reads 1 L fl (mk B o o tb e) y (mk B (o + blen t) o tb' e).
Proof.
  intros A H Hx. destruct (atom_kind fl e y t f A) as [->|(-> & [WD|NW])].
  - exists tb. split; [now left|]. intros n Hn. destruct n as [|n]; [lia|].
    rewrite (num_reads n L fl e y t o tb 0 58%N (x :: q) A H) by (simpl; tauto). now rewrite Nat.add_0_r.
  - apply (word_reads L fl e y t o tb (58%N :: x :: q) WD H); [cbn; unfold after_word; simpl; tauto|].
    left. destruct Hx as [<-|Hx]; [reflexivity|]. unfold stop_f. cbn [skipn orb]. rewrite (proj2 (Nat.eqb_neq _ _) (nl_len_pos x q Hx)).
    destruct Hx as [<-|[<-|[]]]; reflexivity.
  - exists tb. split; [now left|]. intros n Hn. destruct n as [|n]; [lia|].
    now rewrite (done_reads n L fl e y t o tb (58%N :: x :: q) A NW H) by (split; reflexivity || discriminate).
Qed.
(** in front of white space and the end of a flow item *)
Lemma gap_spaces w : wide w -> ~ In 9%N w -> ~ In 12%N w -> exists z w2, w = repeat 32%N z ++ w2 /\ (w2 = [] \/ exists x q, w2 = x :: q /\ (x = 10%N \/ x = 13%N)).
Proof.
  induction 1 as [|x w Hx Hw IH]; intros H1 H2; [exists 0, []; auto|].
  simpl in Hx. destruct Hx as [<-|[<-|[<-|[<-|[<-|[]]]]]].
  - destruct IH as (z & w2 & -> & K); [simpl in *; tauto..|]. exists (S z), w2. auto.
  - exfalso. apply H1. now left.
  - exists 0, (10%N :: w). split; [reflexivity|]. right. eauto.
  - exfalso. apply H2. now left.
  - exists 0, (13%N :: w). split; [reflexivity|]. right. eauto.
Qed.
Lemma atom_flow L e y t f o tb w c r : atom cyclic true e y t f -> at_ B o (utf8_encode t ++ w ++ c :: r) -> flow_gap f w -> closer c -> 0 < depth tb L ->
  exists k tb', k <= List.length w /\ tb_ok L tb tb' /\ reads 1 L true (mk B o o tb e) y (mk B (o + blen t + k) o tb' e).
Proof.
  intros A H (Hw & Hnum) Hc Hd. destruct (atom_kind true e y t f A) as [->|(-> & [WD|NW])].
  - destruct (Hnum eq_refl) as [N1 N2]. destruct (gap_spaces w Hw N1 N2) as (z & w2 & -> & K). exists z, tb.
    split; [rewrite app_length, repeat_length; lia|]. split; [now left|]. intros n Hn. destruct n as [|n]; [lia|].
    rewrite <- app_assoc in H. assert (KX : exists x q, w2 ++ c :: r = x :: q /\ In x [10; 13; 58; 44; 93; 125]%N).
    { destruct K as [->|(x & q & -> & [-> | ->])]; cbn [app]; eexists _, _; (split; [reflexivity|]); [|simpl; tauto..].
      destruct Hc as [<-|[<-|[<-|[]]]]; simpl; tauto. }
    destruct KX as (x & q & EX & IX). rewrite EX in H. now apply (num_reads n L true e y t o tb z x q A H).
  - destruct WD as (t0 & wt & -> & W & Hwt & M). rewrite encode_app, (blank_encode wt Hwt) in *. rewrite <- app_assoc in H.
    destruct (word_plainb true t0 W) as (V1 & V2 & V3 & V4 & _). apply wide_wsl in Hw.
    destruct (word_trail_ws L (mk B o o tb e) t0 wt w c r (at_in _ _ _ _ _ _ H) V1 V2 V3 Hwt V4 (at_rem _ _ _ _ _ _ H) Hw Hc Hd) as (k & tb' & E & Hk & Htb).
    exists k, tb'. split; [exact Hk|]. split; [exact Htb|]. intros n Hn. destruct n as [|n]; [lia|].
    rewrite (term_word n L true _ t0 _ y _ (at_in _ _ _ _ _ _ H) (mk_AT _ _ _ _) W M (at_rem _ _ _ _ _ _ H)) with (2 := E).
    + f_equal. change (mk B (o + blen t0 + List.length wt + k) o tb' e = mk B (o + List.length (utf8_encode t0 ++ wt) + k) o tb' e). apply mk_eq; [|reflexivity]. rewrite app_length. lia.
    + apply blank_aw; [exact Hwt|]. destruct w as [|x w]; cbn [app].
      * destruct Hc as [<-|[<-|[<-|[]]]]; unfold aw, after_word; simpl; tauto.
      * apply wsl_cons in Hw as [Hx _]. apply ascii_ws_in in Hx. unfold aw, after_word. simpl in Hx |- *. tauto.
  - exists 0, tb. split; [lia|]. split; [now left|]. intros n Hn. destruct n as [|n]; [lia|]. rewrite Nat.add_0_r.
    assert (KX : exists x q, w ++ c :: r = x :: q /\ is_idc x = false /\ x <> 39%N).
    { destruct Hw as [|x w Hx _]; cbn [app]; eexists _, _; (split; [reflexivity|]).
      - destruct Hc as [<-|[<-|[<-|[]]]]; (split; [reflexivity|discriminate]).
      - simpl in Hx. destruct Hx as [<-|[<-|[<-|[<-|[<-|[]]]]]]; (split; [reflexivity|discriminate]). }
    destruct KX as (x & q & EX & X1 & X2). rewrite EX in H. now apply (done_reads n L true e y t o tb (x :: q) A NW H).
Qed.
(** in front of a line break, or at the end *)
Lemma atom_break L fl e y t f o tb b k r : atom cyclic fl e y t f -> break_after eol (here k r) f b -> line_start k r -> k < depth tb L ->
  at_ B o (utf8_encode t ++ utf8_encode b ++ repeat 32%N k ++ r) ->
  exists j b' tb', left_over eol r b j b' /\ tb_ok L tb tb'
    /\ reads 1 L fl (mk B o o tb e) y (mk B (o + blen t + j) o tb' e).
Proof.
  intros A Hb Hr Hk H. destruct (after_head eol eol_ok _ f b Hb) as [(x & q & Ex & Kx)|(HN & Eb & Hf)].
  2:{ (* the end *)
    subst b. destruct r; [|discriminate HN]. assert (k = 0) as -> by (destruct Hr as [[_ ?]|(? & ? & ? & _)]; [assumption|discriminate]).
    cbn [utf8_encode flat_map repeat app] in H. rewrite app_nil_r in H.
    destruct (atom_kind fl e y t f A) as [->|(-> & [WD|NW])].
    - destruct Hf as [Hf|(w & Hf)]; discriminate.
    - rewrite <- (app_nil_r (utf8_encode t)) in H. destruct (word_reads L fl e y t o tb [] WD H Logic.I ltac:(left; reflexivity)) as (tb' & K & RD).
      exists 0, [], tb'. split; [right; auto|]. split; [exact K|]. now rewrite Nat.add_0_r.
    - exists 0, [], tb. split; [right; auto|]. split; [now left|]. intros n Hn. destruct n as [|n]; [lia|]. rewrite Nat.add_0_r.
      apply (done_reads n L fl e y t o tb [] A NW); [now rewrite app_nil_r|exact Logic.I]. }
  assert (BK : brk eol b) by (destruct (after_brk eol _ f b Hb) as [K|[_ ->]]; [exact K|discriminate]).
  destruct (atom_kind fl e y t f A) as [->|(-> & [WD|NW])].
  - exists 0, b, tb. split; [left; auto|]. split; [now left|]. intros n Hn. destruct n as [|n]; [lia|].
    rewrite Ex in H. cbn [app] in H. apply (num_reads n L fl e y t o tb 0 x _ A H). destruct Kx as [->|[->|[K _]]]; [simpl; tauto..|discriminate].
  - assert (AW : aw (utf8_encode b ++ repeat 32%N k ++ r)) by (rewrite Ex; cbn; unfold after_word; destruct Kx as [->|[->|[_ ->]]]; simpl; tauto).
    destruct Hb as [(tr & g & Eb & Hg & [->|(_ & j & c & -> & Hc)] & _)|(_ & -> & _)]; [| |discriminate].
    + (* no comment *)
      destruct (word_reads L fl e y t o tb _ WD H AW) as (tb' & K & RD).
      { right. left. split; [exact (Nat.le_lt_trans _ _ _ (Nat.le_0_l k) Hk)|]. destruct (brk_gap eol eol_ok b k r BK Hr) as (g' & G). split.
        - rewrite Eb, !encode_app, (eol_encode eol eol_ok), <- !app_assoc. cbn [app utf8_encode flat_map].
          rewrite (nl_eol eol eol_ok) by (apply (lines_apart eol eol_ok); [exact Hg|now apply start_apart]). destruct eol_ok as [-> | ->]; discriminate.
        - exists g', (blen b). split; [exact G|]. rewrite skipn_app_len. destruct (spaces_shown k r Hr) as (_ & _ & -> & _). exact Hk. }
      exists 0, b, tb'. split; [left; auto|]. split; [exact K|]. now rewrite Nat.add_0_r.
    + (* a comment *)
      destruct (comment_encode c Hc) as (cr & Ec & _).
      assert (EB : utf8_encode b = repeat 32%N (S j) ++ utf8_encode (c ++ eol ++ g)).
      { rewrite Eb, !encode_app, <- app_assoc. f_equal. unfold indent. apply encode_asciis. unfold asciis. apply forallb_forall. intros z Hz. apply repeat_spec in Hz as ->. reflexivity. }
      assert (EB' : utf8_encode (indent 1 ++ c ++ eol ++ g) = [32%N] ++ utf8_encode (c ++ eol ++ g)) by (rewrite encode_app; reflexivity).
      assert (WJ : worded fl (t ++ indent j) y).
      { destruct WD as (t0 & w & -> & W & Hw & M). exists t0, (w ++ indent j). split; [now rewrite app_assoc|]. split; [exact W|]. split; [|exact M].
        apply Forall_app. split; [exact Hw|]. apply Forall_forall. intros z Hz. apply repeat_spec in Hz as ->. now left. }
      assert (HJ : at_ B o (utf8_encode (t ++ indent j) ++ 32%N :: 35%N :: cr ++ utf8_encode (eol ++ g) ++ repeat 32%N k ++ r)).
      { rewrite EB, (encode_app c), Ec in H. unfold indent. rewrite encode_app, spaces_encode. replace (S j) with (j + 1) in H by lia. rewrite repeat_app in H. cbn [repeat] in H.
        rewrite <- !app_assoc in *. exact H. }
      destruct (word_reads L fl e y (t ++ indent j) o tb _ WJ HJ) as (tb' & K & RD); [cbn; unfold after_word; simpl; tauto|left; reflexivity|].
      exists j, (indent 1 ++ c ++ eol ++ g), tb'. split; [left; split; [rewrite EB', EB, (app_assoc (repeat 32%N j)); f_equal; replace (S j) with (j + 1) by lia; apply repeat_app|
        left; exists (indent 1 ++ c), g; split; [now rewrite <- app_assoc|]; split; [exact Hg|]; right; exists (indent 1), c; split; [reflexivity|]; split; [constructor; [unfold blank; auto|constructor]|exact Hc]]|].
      split; [exact K|]. unfold indent in RD. rewrite encode_app, spaces_encode, app_length, repeat_length in RD. now rewrite <- Nat.add_assoc.
  - exists 0, b, tb. split; [left; auto|]. split; [now left|]. intros n Hn. destruct n as [|n]; [lia|]. rewrite Nat.add_0_r.
    apply (done_reads n L fl e y t o tb _ A NW H). rewrite Ex. cbn [app]. destruct Kx as [->|[->|[_ ->]]]; split; reflexivity || discriminate.
Qed.
End Atoms.
