(** Model of the lookup table activations (lib/src/bricks/impl/mli_prv_lut_ref.h, lib/src/private/src/mli_prv_activation_lut.cc,
    lib/src/kernels/transform/mli_krn_sigm_fx.cc and mli_krn_tanh_fx.cc). Input and output tensors live in one memory; the table
    lives in its own memory, so a table that overlaps the output is not covered. *)
From Coq Require Import ZArith List Lia Bool.
From Verif Require Import Base FxMath Tensor ArgMax Quant Eltwise.
Import ListNotations.
Open Scope Z_scope.

(** include/mli_types.h:173-181 struct mli_lut, without the element type; output_offset is never read. [l_data] is the buffer
    behind data.mem.pi16, [l_cap] data.capacity in bytes. *)
Record lut := mkLut { l_data : mem; l_cap : Z; l_len : Z; l_fi : Z; l_fo : Z; l_off : Z }.

(** * One element *)

(** The conversion of the input of activation_lut_one_elem_interpolate: none, subtraction of an offset (fx_with_in_offset), or
    SA8 to fixed point (convert_input). *)
Inductive lut_in := LIN_FX | LIN_OFFSET (off : Z) | LIN_SA (q : qpar).

(** The conversion of the output: fixed point of [n] bits, or SA8 (convert_output). *)
Inductive lut_out := LOUT_FX (n : Z) | LOUT_SA (q : qpar).

(** mli_prv_lut_ref.h:39-44, 88-93: fractional bits of the input; for SA8 inputs 15 - (7 - lut->in_frac_bits). The variable
    is an int8_t. *)
Definition lut_in_frac (ik : lut_in) (l : lut) (fin : Z) : Z :=
  match ik with LIN_SA _ => wrap 8 (15 - (7 - l_fi l)) | _ => wrap 8 fin end.

(** mli_prv_lut_ref.h:106-119 with mli_prv_quant_ref.h:637-646 mli_prv_convert_sa8_fx16 (with a shift) *)
Definition lut_input (rm : rmode) (ik : lut_in) (fin x : Z) : Z :=
  match ik with
  | LIN_FX => x
  | LIN_OFFSET off => sub_fx 32 x off
  | LIN_SA q => cast_same rm 32 (wrap 16 (x - q_zp q) * q_scale q) (q_frac q - fin)
  end.

(** mli_prv_quant_ref.h:648-658 mli_prv_convert_fx16_sa8 *)
Definition convert_fx16_sa8 (rm : rmode) (x zp scale : Z) : Z := acc_cast_8 rm (wrap 32 (asr_rnd_fx rm 32 x scale + zp)) 0.

(** mli_prv_lut_ref.h:130-137, 193-200. mli_math_cast_fx<int16_t,int16_t>(res, 0) and mli_math_cast_fx<int16_t,int8_t>(res, 8). *)
Definition lut_output (rm : rmode) (ok : lut_out) (l : lut) (res : Z) : Z :=
  match ok with
  | LOUT_FX n => if n =? 16 then cast_same rm 16 res 0 else cast_narrow rm 16 8 res 8
  | LOUT_SA q => convert_fx16_sa8 rm res (q_zp q) (l_fo l - q_frac q)
  end.

(** mli_prv_lut_ref.h:95-128: the interpolation of activation_lut_one_elem_interpolate, 1 <= fin - lut->in_frac_bits. diff and
    res are int16_t. *)
Definition lut_interp (rm : rmode) (l : lut) (fin input : Z) : option Z :=
  let d := fin - l_fi l in
  let pre := min_fx (max_fx (d - 15) 0) 15 in
  let s := min_fx d 15 in
  let mask := wrap 16 (Z.shiftl 1 s - 1) in
  let x := asr_fx 32 input pre in
  let idx := bound_range_fx (add_fx 32 (asr_fx 32 x s) (l_off l)) 0 (l_len l - 2) in
  let frac := wrap 16 (Z.land x mask) in
  do res <- load (l_data l) idx;
  do next <- load (l_data l) (idx + 1);
  let diff := wrap 16 (res - next) in
  Some (wrap 16 (res - acc_cast_16 rm (diff * frac) s)).

(** mli_prv_lut_ref.h:75-140 activation_lut_one_elem_interpolate *)
Definition lut_elem_interp (rm : rmode) (ik : lut_in) (ok : lut_out) (l : lut) (fin x : Z) : option Z :=
  let f := lut_in_frac ik l fin in
  do r <- lut_interp rm l f (lut_input rm ik f x);
  Some (lut_output rm ok l r).

(** mli_prv_lut_ref.h:166-180: the input of activation_lut_one_elem_no_interpolate, with mli_prv_quant_ref.h:627-635
    mli_prv_convert_sa8_fx16 (without a shift). *)
Definition lut_input_direct (rm : rmode) (ik : lut_in) (fin x : Z) : Z :=
  match ik with
  | LIN_FX => x
  | LIN_OFFSET off => sub_fx 32 x off
  | LIN_SA q => cast_narrow rm 64 16 (wrap 16 (x - q_zp q) * asr_rnd_fx rm 32 (q_scale q) (q_frac q - fin)) 0
  end.

(** mli_prv_lut_ref.h:142-203 activation_lut_one_elem_no_interpolate *)
Definition lut_elem_direct (rm : rmode) (ik : lut_in) (ok : lut_out) (l : lut) (fin x : Z) : option Z :=
  let f := lut_in_frac ik l fin in
  let s := min_fx (f - l_fi l) 15 in
  let idx := bound_range_fx (add_fx 32 (asl_fx 32 (lut_input_direct rm ik f x) (- s)) (l_off l)) 0 (l_len l - 1) in
  do res <- load (l_data l) idx;
  Some (lut_output rm ok l res).

(** mli_prv_lut_ref.h:39-49: the choice between both *)
Definition lut_elem (rm : rmode) (ik : lut_in) (ok : lut_out) (l : lut) (fin x : Z) : option Z :=
  let s := min_fx (lut_in_frac ik l fin - l_fi l) 15 in
  if s >? 0 then lut_elem_interp rm ik ok l fin x else lut_elem_direct rm ik ok l fin x.

(** * All elements *)

(** mli_prv_lut_ref.h:47-72: four loops over the squashed dimensions of the input (stride 0) and the output (stride 1) *)
Definition map_all (g : Z -> option Z) (pi po : Z) (ds : dims) (m : mem) : option mem :=
  foldM (fun c m => do x <- load m (pi + addr (d_stride 0 ds) c); do y <- g x; store m (po + addr (d_stride 1 ds) c) y)
    (coords (d_shape ds)) m.

(** mli_prv_lut_ref.h:216-233 activation_lut and :23-73 compute_activation_lut *)
Definition activation_lut (rm : rmode) (ik : lut_in) (ok : lut_out) (l : lut) (fin : Z) (tin tout : tensor) (m : mem) : option mem :=
  map_all (lut_elem rm ik ok l fin) (t_data tin) (t_data tout)
    (squash_generic 2 (dims_of (t_shape tin) [t_stride tin; t_stride tout])) m.

(** * Kernels *)

(** mli_krn_sigm_fx.cc:26-51 mli_krn_sigm_fx{8,16} and the same in mli_krn_tanh_fx.cc:26-51; the output gets n - 1 fractional
    bits. *)
Definition act_fx (rm : rmode) (n : Z) (l : lut) (fin : Z) (tin tout : tensor) (m : mem) : option mem :=
  activation_lut rm LIN_FX (LOUT_FX n) l fin tin tout m.
Definition act_fx_out (n : Z) : qpar := mkQ 1 (n - 1) 0.

(** mli_krn_sigm_fx.cc:53-77 mli_krn_sigm_sa8, mli_krn_tanh_fx.cc:54-78 mli_krn_tanh_sa8, which differ in the parameters of
    the output (lib/src/private/mli_prv_activation_lut.h:16-19). *)
Definition act_sa8 (rm : rmode) (o : qpar) (l : lut) (i : qpar) (tin tout : tensor) (m : mem) : option mem :=
  activation_lut rm (LIN_SA i) (LOUT_SA o) l 0 tin tout m.
Definition sigm_sa8_out : qpar := mkQ 1 8 (-128).
Definition tanh_sa8_out : qpar := mkQ 1 7 0.

(** mli_check.cc:1711-1732 mli_chk_basic_activation; null pointer and element type tests are not modelled. *)
Definition chk_basic_activation (tin tout : tensor) : status :=
  match chk_tensor tin with ST_OK =>
  match chk_tensor tout with ST_OK =>
  if negb (same_shape tin tout) then ST_SHAPE_MISMATCH
  else if negb (inner_stride_is_one tin && inner_stride_is_one tout) then ST_INCOMPATIBLE
  else ST_OK
  | s => s end | s => s end.

(** mli_check.cc:1759-1764: the format test of mli_chk_basic_activation_sa8 (kZeroPointBitsByteRange = 7). *)
Definition chk_act_quant (i : qpar) : bool := (0 <? q_scale i) && (-128 <=? q_zp i) && (q_zp i <=? 127).

(** * Tables *)

(** lib/src/private/src/mli_prv_activation_lut.cc:25-66 *)
Definition sigmoid_table : list Z :=
  [ 1; 2; 2; 2; 2; 2; 2; 2; 2; 3; 3; 3; 3; 3; 4; 4;
    4; 4; 5; 5; 5; 6; 6; 6; 7; 7; 8; 8; 9; 9; 10; 10;
    11; 12; 12; 13; 14; 15; 16; 17; 18; 19; 21; 22; 23; 25; 26; 28;
    30; 32; 34; 36; 38; 41; 43; 46; 49; 52; 56; 59; 63; 67; 72; 76;
    81; 86; 92; 98; 104; 111; 118; 125; 133; 142; 151; 161; 171; 182; 194; 206;
    219; 233; 248; 264; 281; 299; 318; 338; 360; 383; 407; 433; 461; 490; 521; 554;
    589; 627; 666; 708; 753; 800; 851; 904; 961; 1021; 1084; 1152; 1223; 1299; 1379; 1464;
    1554; 1649; 1750; 1856; 1969; 2088; 2213; 2346; 2486; 2633; 2789; 2952; 3124; 3306; 3496; 3696;
    3906; 4126; 4357; 4599; 4851; 5115; 5391; 5678; 5978; 6289; 6613; 6949; 7297; 7658; 8031; 8416;
    8813; 9221; 9641; 10072; 10513; 10964; 11424; 11894; 12371; 12856; 13348; 13845; 14347; 14852; 15361; 15872;
    16384; 16896; 17407; 17916; 18421; 18923; 19420; 19912; 20397; 20874; 21344; 21804; 22255; 22696; 23127; 23547;
    23955; 24352; 24737; 25110; 25471; 25819; 26155; 26479; 26790; 27090; 27377; 27653; 27917; 28169; 28411; 28642;
    28862; 29072; 29272; 29462; 29644; 29816; 29979; 30135; 30282; 30422; 30555; 30680; 30799; 30912; 31018; 31119;
    31214; 31304; 31389; 31469; 31545; 31616; 31684; 31747; 31807; 31864; 31917; 31968; 32015; 32060; 32102; 32141;
    32179; 32214; 32247; 32278; 32307; 32335; 32361; 32385; 32408; 32430; 32450; 32469; 32487; 32504; 32520; 32535;
    32549; 32562; 32574; 32586; 32597; 32607; 32617; 32626; 32635; 32643; 32650; 32657; 32664; 32670; 32676; 32682;
    32687; 32692; 32696; 32701; 32705; 32709; 32712; 32716; 32719; 32722; 32725; 32727; 32730; 32732; 32734; 32736;
    32738; 32740; 32742; 32743; 32745; 32746; 32747; 32749; 32750; 32751; 32752; 32753; 32754; 32755; 32756; 32756;
    32757; 32758; 32758; 32759; 32759; 32760; 32760; 32761; 32761; 32762; 32762; 32762; 32763; 32763; 32763; 32764;
    32764; 32764; 32764; 32765; 32765; 32765; 32765; 32765; 32766; 32766; 32766; 32766; 32766; 32766; 32766; 32766 ].

(** lib/src/private/src/mli_prv_activation_lut.cc:89-133 *)
Definition tanh_table : list Z :=
  [ -32767; -32767; -32766; -32766; -32766; -32766; -32766; -32766; -32766; -32766; -32765; -32765; -32765; -32765; -32765; -32764;
    -32764; -32764; -32764; -32763; -32763; -32763; -32762; -32762; -32762; -32761; -32761; -32760; -32760; -32759; -32759; -32758;
    -32758; -32757; -32756; -32755; -32755; -32754; -32753; -32752; -32751; -32750; -32749; -32747; -32746; -32745; -32743; -32741;
    -32740; -32738; -32736; -32734; -32732; -32729; -32727; -32724; -32721; -32718; -32715; -32712; -32708; -32704; -32700; -32696;
    -32691; -32686; -32681; -32676; -32670; -32663; -32657; -32649; -32642; -32634; -32625; -32616; -32606; -32596; -32584; -32573;
    -32560; -32547; -32532; -32517; -32501; -32484; -32466; -32447; -32426; -32404; -32381; -32356; -32329; -32301; -32271; -32240;
    -32206; -32170; -32132; -32091; -32048; -32002; -31953; -31901; -31846; -31788; -31726; -31659; -31589; -31515; -31435; -31351;
    -31262; -31167; -31067; -30960; -30847; -30727; -30600; -30465; -30322; -30170; -30010; -29840; -29660; -29470; -29268; -29055;
    -28830; -28592; -28341; -28076; -27797; -27502; -27191; -26864; -26519; -26157; -25776; -25376; -24956; -24516; -24054; -23571;
    -23066; -22538; -21986; -21411; -20813; -20189; -19542; -18870; -18173; -17452; -16706; -15936; -15143; -14326; -13486; -12625;
    -11743; -10840; -9919; -8980; -8025; -7056; -6073; -5079; -4075; -3063; -2045; -1024; 0; 1024; 2045; 3063;
    4075; 5079; 6073; 7056; 8025; 8980; 9919; 10840; 11743; 12625; 13486; 14326; 15143; 15936; 16706; 17452;
    18173; 18870; 19542; 20189; 20813; 21411; 21986; 22538; 23066; 23571; 24054; 24516; 24956; 25376; 25776; 26157;
    26519; 26864; 27191; 27502; 27797; 28076; 28341; 28592; 28830; 29055; 29268; 29470; 29660; 29840; 30010; 30170;
    30322; 30465; 30600; 30727; 30847; 30960; 31067; 31167; 31262; 31351; 31435; 31515; 31589; 31659; 31726; 31788;
    31846; 31901; 31953; 32002; 32048; 32091; 32132; 32170; 32206; 32240; 32271; 32301; 32329; 32356; 32381; 32404;
    32426; 32447; 32466; 32484; 32501; 32517; 32532; 32547; 32560; 32573; 32584; 32596; 32606; 32616; 32625; 32634;
    32642; 32649; 32657; 32663; 32670; 32676; 32681; 32686; 32691; 32696; 32700; 32704; 32708; 32712; 32715; 32718;
    32721; 32724; 32727; 32729; 32732; 32734; 32736; 32738; 32740; 32741; 32743; 32745; 32746; 32747; 32749; 32750;
    32751; 32752; 32753; 32754; 32755; 32755; 32756; 32757; 32758; 32758; 32759; 32759; 32760; 32760; 32761; 32761;
    32762; 32762; 32762; 32763; 32763; 32763; 32764; 32764; 32764; 32764; 32765; 32765; 32765; 32765; 32765; 32766;
    32766; 32766; 32766; 32766; 32766; 32766; 32766; 32767 ].

(** lib/src/private/src/mli_prv_activation_lut.cc:155-201 *)
Definition expneg_table : list Z :=
  [ 0; 0; 1; 1; 1; 1; 1; 1; 1; 1; 1; 1; 1; 1; 1; 1;
    1; 1; 1; 1; 1; 1; 1; 1; 1; 1; 1; 1; 1; 1; 1; 1;
    1; 1; 1; 1; 1; 2; 2; 2; 2; 2; 2; 2; 2; 2; 2; 2;
    2; 2; 2; 2; 2; 3; 3; 3; 3; 3; 3; 3; 3; 3; 3; 3;
    4; 4; 4; 4; 4; 4; 4; 4; 5; 5; 5; 5; 5; 5; 6; 6;
    6; 6; 6; 6; 7; 7; 7; 7; 8; 8; 8; 8; 9; 9; 9; 9;
    10; 10; 10; 11; 11; 11; 12; 12; 12; 13; 13; 14; 14; 15; 15; 16;
    16; 17; 17; 18; 18; 19; 19; 20; 21; 21; 22; 23; 23; 24; 25; 26;
    26; 27; 28; 29; 30; 31; 32; 33; 34; 35; 36; 37; 38; 40; 41; 42;
    43; 45; 46; 48; 49; 51; 52; 54; 56; 58; 59; 61; 63; 65; 67; 69;
    72; 74; 76; 79; 81; 84; 86; 89; 92; 95; 98; 101; 104; 108; 111; 115;
    118; 122; 126; 130; 134; 138; 143; 147; 152; 157; 162; 167; 172; 177; 183; 189;
    195; 201; 207; 214; 221; 228; 235; 242; 250; 258; 266; 275; 283; 292; 302; 311;
    321; 331; 342; 353; 364; 376; 387; 400; 412; 426; 439; 453; 467; 482; 498; 513;
    530; 546; 564; 582; 600; 619; 639; 659; 680; 702; 724; 747; 771; 795; 820; 846;
    873; 901; 930; 959; 990; 1021; 1053; 1087; 1121; 1157; 1194; 1231; 1271; 1311; 1352; 1395;
    1440; 1485; 1533; 1581; 1631; 1683; 1737; 1792; 1849; 1907; 1968; 2030; 2095; 2161; 2230; 2301;
    2374; 2449; 2527; 2607; 2690; 2775; 2863; 2954; 3048; 3145; 3244; 3347; 3454; 3563; 3676; 3793;
    3914; 4038; 4166; 4298; 4435; 4575; 4721; 4871; 5025; 5185; 5349; 5519; 5694; 5875; 6061; 6254;
    6452; 6657; 6869; 7087; 7312; 7544; 7783; 8030; 8285; 8548; 8819; 9099; 9388; 9686; 9994; 10311;
    10638; 10976; 11324; 11684; 12055; 12437; 12832; 13239; 13660; 14093; 14541; 15002; 15479; 15970; 16477; 17000;
    17539; 18096; 18671; 19263; 19875; 20506; 21157; 21828; 22521; 23236; 23974; 24735; 25520; 26330; 27166; 28028;
    28918; 29836; 30783; 31760; 32767; 32767 ].

(** lib/src/private/src/mli_prv_activation_lut.cc:223-237 *)
Definition invsqrt_table : list Z :=
  [ 23170; 22817; 22479; 22155; 21845; 21548; 21263; 20988; 20724; 20470; 20225; 19988; 19760; 19539; 19326; 19119;
    18919; 18725; 18536; 18354; 18176; 18004; 17837; 17674; 17515; 17361; 17211; 17064; 16921; 16782; 16646; 16514;
    16384; 16257; 16134; 16013; 15895; 15779; 15666; 15555; 15447; 15341; 15237; 15135; 15035; 14937; 14841; 14747;
    14654; 14564; 14474; 14387; 14301; 14217; 14134; 14052; 13972; 13894; 13816; 13740; 13665; 13592; 13519; 13448;
    13377; 13308; 13240; 13173; 13107; 13042; 12978; 12915; 12853; 12791; 12731; 12671; 12612; 12554; 12497; 12441;
    12385; 12330; 12276; 12223; 12170; 12118; 12066; 12015; 11965; 11916; 11867; 11818; 11771; 11723; 11677; 11631;
    11585 ].

(** mli_prv_activation_lut.cc:68-79, 135-145, 203-213, 239-248: the constant tables; capacity is the size in bytes. *)
Definition tab_mem (l : list Z) : mem := fun a => if a <? 0 then None else nth_error l (Z.to_nat a).
Definition const_lut (tab : list Z) (fi fo off : Z) : lut :=
  mkLut (tab_mem tab) (2 * Z.of_nat (length tab)) (Z.of_nat (length tab)) fi fo off.
Definition sigmoid_lut : lut := const_lut sigmoid_table 4 15 160.
Definition tanh_lut : lut := const_lut tanh_table 5 15 172.
Definition expneg_lut : lut := const_lut expneg_table 5 15 356.
Definition invsqrt_lut : lut := const_lut invsqrt_table 0 17 (-32).

(** mli_krn_sigm_fx.cc:83-96 mli_krn_sigm_create_lut, and the same in the tanh, softmax and L2 normalize kernels:
    mli_chk_lut (mli_check.cc:104-119), memcpy of length * sizeof(int16_t) bytes, and the fields. *)
Definition create_lut (src dst : lut) : status * option lut :=
  if negb (l_cap dst >=? l_cap src) then (ST_NOT_ENGH_MEM, Some dst)
  else (ST_OK,
    do d <- foldM (fun i d => do v <- load (l_data src) i; store d i v) (zrange 0 (l_len src)) (l_data dst);
    Some (mkLut d (l_cap dst) (l_len src) (l_fi src) (l_fo src) (l_off src))).

(** mli_krn_sigm_fx.cc:79-81 mli_krn_sigm_get_lut_size *)
Definition get_lut_size (src : lut) : Z := l_len src * 2.
