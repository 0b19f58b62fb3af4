(** Reading lines: getline of example/util.c and the main loop. *)
From Coq Require Import ZArith List Bool Ascii String Reals Lia Lra.
From Verif Require Import CModel FloatModel Libm LibmSpec Calculator CalcSpec CalcFacts CalcStep CalcRun.
Import ListNotations.

Section Input.
Variable bufsiz : nat.
Hypothesis bufsiz_ok : (4 <= bufsiz)%nat.

Lemma c_string_map : forall s rest, c_string (map Some s ++ Some "000"%char :: rest) = Val (up_to_nul s).
Proof.
  induction s as [|c s IH]; intros rest; [reflexivity|]. cbn [map app c_string up_to_nul]. destruct (ascii_dec c "000"); [reflexivity|].
  rewrite IH. reflexivity.
Qed.
Lemma put_ok : forall b cells pos c acc, block b = Some cells -> List.length cells = line_capacity b -> pos = List.length acc ->
  (pos < line_capacity b)%nat -> firstn pos cells = map Some acc ->
  exists cells', put b pos c = Val (mk_buffer (Some cells') (line_capacity b)) /\ List.length cells' = line_capacity b /\
    cells' = map Some (acc ++ [c]) ++ skipn (Datatypes.S pos) cells.
Proof.
  intros b cells pos c acc Hb Hl Hp Hc Hf. unfold put. rewrite Hb. unfold write. rewrite Hl.
  destruct (Nat.ltb_spec pos (line_capacity b)) as [L|L]; [|lia]. cbn [bind]. eexists. split; [reflexivity|].
  split; [rewrite app_length, firstn_length, length_cons, skipn_length; lia|]. rewrite Hf, map_app, <- app_assoc. reflexivity.
Qed.
Lemma firstn_map_some : forall {A} (s : list A) rest, firstn (List.length s) (map Some s ++ rest) = map Some s.
Proof. intros A s rest. rewrite <- (map_length Some s), firstn_app, Nat.sub_diag, firstn_all. cbn [firstn]. apply app_nil_r. Qed.

Lemma loop_spec : forall input c b pos m acc cells, block b = Some cells -> List.length cells = line_capacity b ->
  (4 <= line_capacity b)%nat -> pos = List.length acc -> (pos + 1 <= line_capacity b)%nat -> firstn pos cells = map Some acc ->
  exists g, getline_loop bufsiz c input b pos m = Val g /\ buffer_ok (line_buffer g) /\ (m = [] -> left_allocations g = []) /\
    ((returned g = None /\ In false m) \/
     exists taken rest, has_read g taken rest /\ lines_from acc (c :: input) = taken :: lines_from [] rest /\ (List.length rest <= List.length input)%nat).
Proof.
  induction input as [|c' input IH]; intros c b pos m acc cells Hb Hl H4 Hp Hc Hf; cbn [getline_loop].
  all: assert (exists r m', grow bufsiz b pos m = (r, m') /\ (m = [] -> m' = []) /\ incl m' m /\
    match r with
    | None => In false m
    | Some b' => exists cells', block b' = Some cells' /\ List.length cells' = line_capacity b' /\ (4 <= line_capacity b')%nat /\
        (pos + 2 <= line_capacity b')%nat /\ firstn pos cells' = map Some acc
    end) as (r & m' & -> & Hm & Hi & Hr).
  1, 3: unfold grow; destruct (Nat.leb_spec (line_capacity b) (pos + 1)) as [L|L].
  1, 3: rewrite Hb; set (new := if Nat.ltb (line_capacity b + line_capacity b / 4) bufsiz then bufsiz else (line_capacity b + line_capacity b / 4)%nat);
      assert (pos + 2 <= new)%nat as Hn by
        (assert (1 <= line_capacity b / 4)%nat by (apply (Nat.div_le_mono 4 (line_capacity b) 4); lia);
         subst new; destruct (Nat.ltb_spec (line_capacity b + line_capacity b / 4) bufsiz); lia);
      destruct m as [|ok m]; [|destruct ok]; cbn [allocate].
  1, 4: eexists _, _; split; [reflexivity|]; split; [reflexivity|]; split; [apply incl_refl|]; eexists; cbn [block line_capacity]; split; [reflexivity|];
      (rewrite firstn_all2 by lia); (split; [rewrite app_length, repeat_length; lia|]); (split; [lia|]); (split; [lia|]); rewrite firstn_app, Hf;
      replace (pos - List.length cells)%nat with 0%nat by lia; cbn [firstn]; apply app_nil_r.
  1, 3: eexists _, _; split; [reflexivity|]; split; [discriminate|]; split; [apply incl_tl, incl_refl|]; eexists; cbn [block line_capacity]; split; [reflexivity|];
      (rewrite firstn_all2 by lia); (split; [rewrite app_length, repeat_length; lia|]); (split; [lia|]); (split; [lia|]); rewrite firstn_app, Hf;
      replace (pos - List.length cells)%nat with 0%nat by lia; cbn [firstn]; apply app_nil_r.
  1, 2: eexists _, _; split; [reflexivity|]; split; [discriminate|]; split; [apply incl_tl, incl_refl|]; left; reflexivity.
  1, 2: eexists _, _; split; [reflexivity|]; split; [auto|]; split; [apply incl_refl|]; exists cells; repeat (split; [assumption || lia|]); assumption.
  - destruct r as [b'|].
    2: { eexists. split; [reflexivity|]. split; [unfold buffer_ok; cbn [line_buffer]; rewrite Hb; auto|]. split; [intros; cbn; auto|]. left. auto. }
    destruct Hr as (cells1 & Hb1 & Hl1 & H41 & Hc1 & Hf1).
    destruct (put_ok b' cells1 pos c acc Hb1 Hl1 Hp ltac:(lia) Hf1) as (cells2 & E2 & Hl2 & Q2). rewrite E2. cbn [bind].
    destruct (put_ok (mk_buffer (Some cells2) (line_capacity b')) cells2 (Datatypes.S pos) "000"%char (acc ++ [c]) eq_refl Hl2) as (cells3 & E3 & Hl3 & Q3).
    { rewrite app_length. cbn. lia. }
    { cbn [line_capacity]. lia. }
    { rewrite Q2. replace (Datatypes.S pos) with (List.length (acc ++ [c])) by (rewrite app_length; cbn; lia). apply firstn_map_some. }
    cbn [line_capacity] in E3, Hl3. rewrite E3. cbn [bind].
    assert (c_string cells3 = Val (up_to_nul (acc ++ [c]))) as Ec. { rewrite Q3, map_app, <- app_assoc. apply c_string_map. }
    assert (lines_from acc [c] = (acc ++ [c]) :: lines_from [] []) as EL.
    { cbn [lines_from]. destruct (ascii_dec c "010"); [reflexivity|]. destruct acc; reflexivity. }
    destruct (ascii_dec c "010"); (eexists; split; [reflexivity|]; split; [split; [assumption|cbn; lia]|]; split; [assumption|]; right; exists (acc ++ [c]), [];
      split; [split; [cbn; rewrite app_length; cbn; f_equal; lia|split; [reflexivity|exists cells3; split; [reflexivity|assumption]]]|split; [assumption|cbn; lia]]).
  - destruct r as [b'|].
    2: { eexists. split; [reflexivity|]. split; [unfold buffer_ok; cbn [line_buffer]; rewrite Hb; auto|]. split; [intros; cbn; auto|]. left. auto. }
    destruct Hr as (cells1 & Hb1 & Hl1 & H41 & Hc1 & Hf1).
    destruct (put_ok b' cells1 pos c acc Hb1 Hl1 Hp ltac:(lia) Hf1) as (cells2 & E2 & Hl2 & Q2). rewrite E2. cbn [bind].
    assert (firstn (Datatypes.S pos) cells2 = map Some (acc ++ [c])) as Hf2.
    { rewrite Q2. replace (Datatypes.S pos) with (List.length (acc ++ [c])) by (rewrite app_length; cbn; lia). apply firstn_map_some. }
    destruct (ascii_dec c "010") as [->|Nc].
    + destruct (put_ok (mk_buffer (Some cells2) (line_capacity b')) cells2 (Datatypes.S pos) "000"%char (acc ++ ["010"%char]) eq_refl Hl2) as (cells3 & E3 & Hl3 & Q3).
      { rewrite app_length. cbn. lia. }
      { cbn [line_capacity]. lia. }
      { assumption. }
      cbn [line_capacity] in E3, Hl3. rewrite E3. cbn [bind].
      assert (c_string cells3 = Val (up_to_nul (acc ++ ["010"%char]))) as Ec. { rewrite Q3, map_app, <- app_assoc. apply c_string_map. }
      eexists. split; [reflexivity|]. split; [split; [assumption|cbn; lia]|]. split; [assumption|]. right. exists (acc ++ ["010"%char]), (c' :: input).
      split; [split; [cbn; rewrite app_length; cbn; f_equal; lia|split; [reflexivity|exists cells3; split; [reflexivity|assumption]]]|split; [reflexivity|lia]].
    + destruct (IH c' (mk_buffer (Some cells2) (line_capacity b')) (Datatypes.S pos) m' (acc ++ [c]) cells2 eq_refl Hl2 H41) as (g & E & Bo & Al & R).
      { rewrite app_length. cbn. lia. }
      { cbn [line_capacity]. lia. }
      { assumption. }
      exists g. split; [assumption|]. split; [assumption|]. split; [auto|]. destruct R as [[R I]|(taken & rest & HR & EL & Le)].
      * left. split; [assumption|]. apply Hi, I.
      * right. exists taken, rest. split; [assumption|]. split; [|cbn [List.length]; lia].
        change (lines_from acc (c :: c' :: input)) with (if ascii_dec c "010" then (acc ++ [c]) :: lines_from [] (c' :: input) else lines_from (acc ++ [c]) (c' :: input)).
        destruct (ascii_dec c "010"); [contradiction|assumption].
Qed.

Lemma getline_spec : forall b input m, buffer_ok b ->
  exists g, getline bufsiz b input m = Val g /\ buffer_ok (line_buffer g) /\ (m = [] -> left_allocations g = []) /\
    ((returned g = None /\ (input = [] \/ In false m)) \/
     exists taken rest, has_read g taken rest /\ lines input = taken :: lines rest /\ (List.length rest < List.length input)%nat).
Proof.
  intros b input m Ok. destruct input as [|c input]; cbn [getline].
  { eexists. split; [reflexivity|]. split; [assumption|]. split; [auto|]. left. auto. }
  assert (forall b' m' cells, block b' = Some cells -> List.length cells = line_capacity b' -> (4 <= line_capacity b')%nat -> (m = [] -> m' = []) -> incl m' m ->
    exists g, getline_loop bufsiz c input b' 0 m' = Val g /\ buffer_ok (line_buffer g) /\ (m = [] -> left_allocations g = []) /\
    ((returned g = None /\ (c :: input = [] \/ In false m)) \/
     exists taken rest, has_read g taken rest /\ lines (c :: input) = taken :: lines rest /\ (List.length rest < List.length (c :: input))%nat)) as K.
  { intros b' m' cells Hb Hl H4 Hm Hi. destruct (loop_spec input c b' 0 m' [] cells Hb Hl H4 eq_refl ltac:(lia) eq_refl) as (g & E & Bo & Al & R).
    exists g. split; [assumption|]. split; [assumption|]. split; [auto|]. destruct R as [[R I]|(taken & rest & HR & EL & Le)].
    - left. split; [assumption|]. right. apply Hi, I.
    - right. exists taken, rest. split; [assumption|]. split; [assumption|]. cbn [List.length]. lia. }
  unfold buffer_ok in Ok. destruct (block b) as [cells|] eqn:Eb.
  - destruct Ok as [Hl H4]. apply (K b m cells Eb Hl H4); [auto|apply incl_refl].
  - destruct m as [|ok m]; [|destruct ok]; cbn [allocate].
    + apply (K (mk_buffer (Some (repeat None bufsiz)) bufsiz) [] (repeat None bufsiz) eq_refl (repeat_length _ _) bufsiz_ok); [auto|apply incl_refl].
    + apply (K (mk_buffer (Some (repeat None bufsiz)) bufsiz) m (repeat None bufsiz) eq_refl (repeat_length _ _) bufsiz_ok); [discriminate|apply incl_tl, incl_refl].
    + eexists. split; [reflexivity|]. split; [unfold buffer_ok; cbn [line_buffer]; rewrite Eb; exact I|]. split; [discriminate|]. left. split; [reflexivity|]. right. left. reflexivity.
Qed.

Lemma set_allocations_same : forall w, allocations w = [] -> set_allocations [] w = w.
Proof. intros [] H. cbn in H. subst. reflexivity. Qed.

Variable lm : libm.
Variable strtold : bytes -> flt f80 * bool.

Lemma main_spec : forall fuel input b w, (List.length input < fuel)%nat -> buffer_ok b -> good lm w ->
  main_loop lm strtold bufsiz fuel b input w = let! w' := run lm strtold (map up_to_nul (lines input)) w in Val (Some w').
Proof.
  induction fuel as [|fuel IH]; intros input b w Hf Hb G; [lia|]. cbn [main_loop].
  assert (allocations w = []) as Al by apply G. rewrite Al.
  destruct (getline_spec b input [] Hb) as (g & E & Bo & HA & R). rewrite E. cbn [bind]. rewrite (HA eq_refl), (set_allocations_same w Al).
  destruct R as [[R [->|I]]|(taken & rest & (R & U & cells & Ec & Es) & EL & Le)]; [|destruct I|].
  - rewrite R. reflexivity.
  - rewrite R, Ec, Es. cbn [bind]. rewrite EL. cbn [map run]. destruct (process_line lm strtold (up_to_nul taken) w) as [w'|] eqn:Ep; [|reflexivity].
    cbn [bind]. rewrite U. apply IH; [lia|assumption|]. eapply good_line; eassumption.
Qed.
Lemma calculator_spec : forall input, c99 lm ->
  calculator lm strtold bufsiz input [] = let! w := run lm strtold (map up_to_nul (lines input)) (initial []) in Val (Some w).
Proof. intros input C. unfold calculator. apply main_spec; [lia|exact I|apply good_initial, C]. Qed.
End Input.
