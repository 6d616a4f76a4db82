(** C69, C70 and C78: the disassembly readers. *)
From Verif Require Export ReaderProofs2.

(** C69: a file of instruction lines and of lines not starting with a blank. *)
Theorem C69_text_lines : forall items, Forall asm_item_ok items ->
  text_read_instructions (file_of (map asm_item_text items)) = Ok (asm_insts items).
Proof. exact text_read_items. Qed.
Print Assumptions C69_text_lines.
(* "Disassembly", "    .text:000107ec f0 87 bD e8  pop", and " x:10 00 00 00 ea" *)
Definition C69_line1 : asm_line :=
  AsmLine [32; 32; 32; 46; 116; 101; 120; 116] [48; 48; 48; 49; 48; 55; 101; 99] [[102; 48]; [56; 55]; [98; 68]; [101; 56]] (Some [112; 111; 112; 58; 32; 32]) 0x107ec [0xf0; 0x87; 0xbd; 0xe8].
Definition C69_line2 : asm_line := AsmLine [120] [49; 48] [[48; 48]; [48; 48]; [48; 48]; [101; 97]] None 0x10 [0; 0; 0; 0xea].
Example C69_example : let items := [inr [68; 105; 115]; inl C69_line1; inr []; inl C69_line2] in
  Forall asm_item_ok items /\ asm_insts items = [(0xe8bd87f0, 0x107ec); (0xea000000, 0x10)].
Proof.
  assert (D : forall d, 0 <= d <= 9 -> hex_char (48 + d) d) by (intros; now constructor).
  assert (L : forall d, 10 <= d <= 15 -> hex_char (87 + d) d) by (intros; now constructor).
  assert (U : forall d, 10 <= d <= 15 -> hex_char (55 + d) d) by (intros; now constructor).
  assert (Bs : forall x y d e, hex_char x d -> hex_char y e -> length [x; y] = 2%nat /\ hex_text [x; y] (16 * (16 * 0 + d) + e)).
  { intros. split; [reflexivity|]. split; [discriminate|]. exists [d; e]. split; [repeat constructor; auto|reflexivity]. }
  split; [|reflexivity]. repeat constructor; cbn [al_prefix al_address al_bytes al_comment al_at al_values C69_line1 C69_line2].
  all: try (cbn; intuition congruence). all: try discriminate.
  all: try (intros c E; injection E as <-; cbn; intuition congruence).
  - exists [0; 0; 0; 1; 0; 7; 14; 12]. split; [|reflexivity]. repeat apply Forall2_cons; [apply (D 0)|apply (D 0)|apply (D 0)|apply (D 1)|apply (D 0)|apply (D 7)|apply (L 14)|apply (L 12)|constructor]; lia.
  - apply (Bs 102 48 15 0); [apply (L 15)|apply (D 0)]; lia.
  - apply (Bs 56 55 8 7); [apply (D 8)|apply (D 7)]; lia.
  - apply (Bs 98 68 11 13); [apply (L 11)|apply (U 13)]; lia.
  - apply (Bs 101 56 14 8); [apply (L 14)|apply (D 8)]; lia.
  - exists [1; 0]. split; [|reflexivity]. repeat apply Forall2_cons; [apply (D 1)|apply (D 0)|constructor]; lia.
  - apply (Bs 48 48 0 0); apply (D 0); lia.
  - apply (Bs 48 48 0 0); apply (D 0); lia.
  - apply (Bs 48 48 0 0); apply (D 0); lia.
  - apply (Bs 101 97 14 10); [apply (L 14)|apply (L 10)]; lia.
Qed.

(** C78: the functions of the text reader partition its instructions, for every file;
    the function of a header gets the instructions up to the next header. *)
Theorem C78_same_instructions : forall file,
  match text_read_functions file, text_read_instructions file with
  | Ok fs, Ok is_ => flat_map snd fs = is_
  | Err e, Err e' => e = e'
  | _, _ => False
  end.
Proof. intros file. apply functions_same; [discriminate|reflexivity]. Qed.
Print Assumptions C78_same_instructions.
Theorem C78_before_headers : forall ls, Forall (fun l => ~ In 10 l /\ ~ function_header l) ls ->
  text_read_functions (file_of ls) = rmap (fun is_ => [([110; 111; 95; 109; 101; 116; 104; 111; 100], is_)]) (text_read_instructions (file_of ls)).
Proof. exact functions_plain. Qed.
Print Assumptions C78_before_headers.
Theorem C78_header : forall us h vs, Forall (fun l => ~ In 10 l) us -> ~ In 10 h -> function_header h ->
  Forall (fun l => ~ In 10 l /\ ~ function_header l) vs ->
  text_read_functions (file_of (us ++ h :: vs)) =
  (let* fs := text_read_functions (file_of us) in let* is_ := text_read_instructions (file_of vs) in Ok (fs ++ [(h, is_)])).
Proof. exact functions_last. Qed.
Print Assumptions C78_header.
(* ".text:00010490 <_start>" *)
Definition C78_head : list Z := [46; 116; 101; 120; 116; 58; 48; 48; 48; 49; 48; 52; 57; 48; 32; 60; 95; 115; 62].
Example C78_example :
  function_header C78_head /\ ~ In 10 C78_head /\
  (forall r, ~ function_header (32 :: r)) /\
  text_read_functions (file_of [asm_text C69_line1; C78_head; asm_text C69_line2]) =
    Ok [([110; 111; 95; 109; 101; 116; 104; 111; 100], [(0xe8bd87f0, 0x107ec)]); (C78_head, [(0xea000000, 0x10)])].
Proof.
  split; [apply header_iff; reflexivity|]. split; [cbn; intuition congruence|]. split; [intros r H; apply header_iff in H; discriminate|]. reflexivity.
Qed.

(** C70: listings with the function table before the code. *)
Theorem C70_functions : forall tail table blocks, ~ In 10 tail -> Forall table_ok table -> Forall block_ok blocks ->
  let ds := declarations table in
  let is_ := flat_map (fun b => code_insts (b_lines b)) blocks in
  exists fs, elfio_read (file_of (listing_lines tail table blocks)) = Ok (fs, is_) /\
    Forall2 (fun a f => last_declared ds a (fst f) /\ sublist_at (fun i => belongs (map fst ds) (map snd is_) i a) is_ (snd f)) (firsts (map fst ds)) fs.
Proof. exact elfio_listing. Qed.
Print Assumptions C70_functions.
(* functions 0x10 "f", 10 "g" and 0x1c "h"; instructions at 8, 10, 14, 1c *)
Definition C70_table : list table_line := [TFun [48; 120; 49; 48] [102] 16; TBlank [32]; TFun [49; 48] [103] 16; TFun [48; 120; 49; 99] [104] 28].
Definition C70_blocks : list block :=
  [Block [105; 110; 105; 116] [] [CInst [56] [97] None 8 10];
   Block [116; 101; 120; 116] [32; 46] [CInst [48; 120; 49; 48] [98] (Some [112; 59]) 16 11; CBlank []; CInst [49; 52] [99] None 20 12; CInst [49; 99] [100] None 28 13]].
Example C70_example : Forall table_ok C70_table /\ Forall block_ok C70_blocks /\ firsts (map fst (declarations C70_table)) = [16; 28] /\
  elfio_read (file_of (listing_lines [115] C70_table C70_blocks)) = Ok ([([103], [(11, 16); (12, 20)]); ([104], [(13, 28)])], [(10, 8); (11, 16); (12, 20); (13, 28)]).
Proof.
  assert (H1 : forall x d, hex_char x d -> hex_text [x] d). { intros. split; [discriminate|]. exists [d]. split; [repeat constructor; auto|reflexivity]. }
  assert (H2 : forall x y d e, hex_char x d -> hex_char y e -> hex_text [x; y] (16 * (16 * 0 + d) + e)).
  { intros. split; [discriminate|]. exists [d; e]. split; [repeat constructor; auto|reflexivity]. }
  assert (D : forall d, 0 <= d <= 9 -> hex_char (48 + d) d) by (intros; now constructor).
  assert (L : forall d, 10 <= d <= 15 -> hex_char (87 + d) d) by (intros; now constructor).
  assert (N : forall (s : list Z) x p c, [x] = p ++ [c] -> ~ blank x -> ~ blank c). { intros s x p c E B. destruct p as [|? [|]]; try discriminate. injection E as <-. auto. }
  assert (T16 : hex_text [49; 48] 16) by (apply (H2 49 48 1 0); [apply (D 1)|apply (D 0)]; lia).
  assert (T28 : hex_text [49; 99] 28) by (apply (H2 49 99 1 12); [apply (D 1)|apply (L 12)]; lia).
  assert (T20 : hex_text [49; 52] 20) by (apply (H2 49 52 1 4); [apply (D 1)|apply (D 4)]; lia).
  split; [|split; [|split; [reflexivity|reflexivity]]].
  - unfold C70_table. repeat apply Forall_cons; [..|constructor]; cbn [table_ok].
    + split; [right; now exists [49; 48]|]. split; [cbn; lia|]. split; [cbn; lia|]. intros p c E. apply (N [] _ _ _ E). unfold blank; cbn; lia.
    + split; [repeat constructor; unfold blank; cbn; tauto|cbn; lia].
    + split; [left; auto|]. split; [cbn; lia|]. split; [cbn; lia|]. intros p c E. apply (N [] _ _ _ E). unfold blank; cbn; lia.
    + split; [right; now exists [49; 99]|]. split; [cbn; lia|]. split; [cbn; lia|]. intros p c E. apply (N [] _ _ _ E). unfold blank; cbn; lia.
  - unfold C70_blocks. repeat apply Forall_cons; [..|constructor]; (split; [constructor|split; [cbn; lia|]]); repeat apply Forall_cons; try apply Forall_nil; cbn [code_ok].
    + split; [left; apply H1, (D 8); lia|]. split; [left; apply H1, (L 10); lia|discriminate].
    + split; [right; now exists [49; 48]|]. split; [left; apply H1, (L 11); lia|]. intros r E. injection E as <-. cbn; lia.
    + split; [constructor|cbn; lia].
    + split; [left; auto|]. split; [left; apply H1, (L 12); lia|discriminate].
    + split; [left; auto|]. split; [left; apply H1, (L 13); lia|discriminate].
Qed.
(** The table must come first: a function declared again after its code loses the
    instructions it had (".function", "8;f", ".text", "8;a", ".function", "8;f"). *)
Example C70_late_table :
  elfio_read (file_of [46 :: s_function; [56; 59; 102]; 46 :: s_text; [56; 59; 97]; 46 :: s_function; [56; 59; 102]]) = Ok ([([102], [])], [(10, 8)]).
Proof. reflexivity. Qed.
