(** Concrete model of the x86 instruction _mm_aesenc_si128 (one AES round:
    ShiftRows, SubBytes, MixColumns, xor round key), used by the hash of
    kernels/okvs.cpp:33-39 and okvs_opt.cpp:45-62.  A register is a 128-bit [N],
    byte 0 least significant.  Checked against the FIPS-197 Appendix B round 1 vector
    at the end of this file. *)
From Coq Require Import NArith List Arith.
Import ListNotations.
Local Open Scope N_scope.

Definition sbox : list N :=
  [99;124;119;123;242;107;111;197;48;1;103;43;254;215;171;118;202;130;201;125;250;89;71;240;173;212;162;175;156;164;114;192;
   183;253;147;38;54;63;247;204;52;165;229;241;113;216;49;21;4;199;35;195;24;150;5;154;7;18;128;226;235;39;178;117;
   9;131;44;26;27;110;90;160;82;59;214;179;41;227;47;132;83;209;0;237;32;252;177;91;106;203;190;57;74;76;88;207;
   208;239;170;251;67;77;51;133;69;249;2;127;80;60;159;168;81;163;64;143;146;157;56;245;188;182;218;33;16;255;243;210;
   205;12;19;236;95;151;68;23;196;167;126;61;100;93;25;115;96;129;79;220;34;42;144;136;70;238;184;20;222;94;11;219;
   224;50;58;10;73;6;36;92;194;211;172;98;145;149;228;121;231;200;55;109;141;213;78;169;108;86;244;234;101;122;174;8;
   186;120;37;46;28;166;180;198;232;221;116;31;75;189;139;138;112;62;181;102;72;3;246;14;97;53;87;185;134;193;29;158;
   225;248;152;17;105;217;142;148;155;30;135;233;206;85;40;223;140;161;137;13;191;230;66;104;65;153;45;15;176;84;187;22].

Definition xtime (a : N) : N := let b := 2 * a in if N.testbit b 8 then N.lxor b 0x11b else b.
Definition byte_at (x : N) (i : nat) : N := N.land (N.shiftr x (8 * N.of_nat i)) 255.
Definition sub_byte (b : N) : N := nth (N.to_nat b) sbox 0.

(** byte i of the state after ShiftRows and SubBytes *)
Definition shifted (x : N) (i : nat) : N :=
  sub_byte (byte_at x (i mod 4 + 4 * ((i / 4 + i mod 4) mod 4))%nat).
(** byte r of column c after MixColumns *)
Definition mixed (x : N) (i : nat) : N :=
  let c := (4 * (i / 4))%nat in let r := (i mod 4)%nat in
  let a k := shifted x (c + (r + k) mod 4)%nat in
  N.lxor (N.lxor (xtime (a 0%nat)) (N.lxor (xtime (a 1%nat)) (a 1%nat))) (N.lxor (a 2%nat) (a 3%nat)).
Definition aesenc (x rk : N) : N :=
  N.lxor (fold_right (fun i acc => N.lor (N.shiftl (mixed x i) (8 * N.of_nat i)) acc) 0 (seq 0 16)) rk.

(** FIPS-197 Appendix B, round 1: state 193de3be..., round key a0fafe17..., result a49c7ff2... *)
Example aesenc_fips197 :
  aesenc 11012717851007172835927160432705617177
         7261024853762033739867724199692794528
       = 97451177555874773049939038549095455908.
Proof. vm_compute. reflexivity. Qed.
