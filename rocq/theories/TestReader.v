(** Generated by tools/gentests.py: the test vectors of reader_test.go run through the
    reader model.  Tests of the model, not properties; they are checked and then dropped. *)
From Verif Require Import Base SpecChecksum SpecHuffman MToken MCommon MWriter MReader.

Definition tenv : renv := REnv 8 (fun s => (kraft s <=? 32768)%N) (Some (fun _ => 0%N)) (fun _ d l => N.min d l)
  (fun w => forallb (N.eqb 0) w) (fun _ => 2).
Definition run (opts : list opt) (src : list (list N * option goerr)) :=
  match readThread tenv (newReader src opts) with Ok r => Some (r_result r) | _ => None end.
(* one read per chunk of n bytes *)
Fixpoint chunks (fuel n : nat) (l : list N) : list (list N * option goerr) :=
  match fuel, l with | S f, _ :: _ => (firstn n l, None) :: chunks f n (skipn n l) | _, _ => [] end.

(* lipsum *)
Goal (* reader_vec_0 *) run [WithFormat RawFormat] [([4;192;209;9;4;33;12;4;208;86;166;128;195;42;238;115;155;144;56;44;3;106;36;137;253;239;123;60;184;160;147;119;97;248;244;64;170;208;23;235;7;243;157;180;98;221;64;31;58;74;211;126;193;169;106;248;251;166;225;206;10;25;179;125;1;0;0;255;255]%N, None)] = Some ([76;111;114;101;109;32;105;112;115;117;109;32;100;111;108;111;114;32;115;105;116;32;97;109;101;116;44;32;99;111;110;115;101;99;116;101;116;117;114;32;97;100;105;112;105;115;99;105;110;103;32;101;108;105;116;46;32;68;111;110;101;99;32;117;108;116;114;105;99;101;115;46]%N, Some EOF).
Proof. vm_compute. reflexivity. Abort.
Goal (* reader_vec_0_bytewise *) run [WithFormat RawFormat] (chunks 1000 1 [4;192;209;9;4;33;12;4;208;86;166;128;195;42;238;115;155;144;56;44;3;106;36;137;253;239;123;60;184;160;147;119;97;248;244;64;170;208;23;235;7;243;157;180;98;221;64;31;58;74;211;126;193;169;106;248;251;166;225;206;10;25;179;125;1;0;0;255;255]%N) = Some ([76;111;114;101;109;32;105;112;115;117;109;32;100;111;108;111;114;32;115;105;116;32;97;109;101;116;44;32;99;111;110;115;101;99;116;101;116;117;114;32;97;100;105;112;105;115;99;105;110;103;32;101;108;105;116;46;32;68;111;110;101;99;32;117;108;116;114;105;99;101;115;46]%N, Some EOF).
Proof. vm_compute. reflexivity. Abort.
(* pangram *)
Goal (* reader_vec_1 *) run [WithFormat RawFormat] [([10;46;200;200;204;171;80;200;79;83;72;202;73;76;206;86;40;44;77;44;42;169;210;81;200;42;77;73;79;85;200;173;84;40;203;47;215;3;4;0;0;255;255]%N, None)] = Some ([83;112;104;105;110;120;32;111;102;32;98;108;97;99;107;32;113;117;97;114;116;122;44;32;106;117;100;103;101;32;109;121;32;118;111;119;46]%N, Some EOF).
Proof. vm_compute. reflexivity. Abort.
Goal (* reader_vec_1_bytewise *) run [WithFormat RawFormat] (chunks 1000 1 [10;46;200;200;204;171;80;200;79;83;72;202;73;76;206;86;40;44;77;44;42;169;210;81;200;42;77;73;79;85;200;173;84;40;203;47;215;3;4;0;0;255;255]%N) = Some ([83;112;104;105;110;120;32;111;102;32;98;108;97;99;107;32;113;117;97;114;116;122;44;32;106;117;100;103;101;32;109;121;32;118;111;119;46]%N, Some EOF).
Proof. vm_compute. reflexivity. Abort.
(* repetitive-1 *)
Goal (* reader_vec_2 *) run [WithFormat RawFormat] [([82;72;76;74;78;81;72;77;75;207;64;98;33;184;8;49;64;0;0;0;255;255]%N, None)] = Some ([32;97;98;99;100;32;101;102;103;104;32;97;98;99;100;32;101;102;103;104;32;101;102;103;104;32;97;98;99;100;32;97;98;99;100;32;101;102;103;104;32]%N, Some EOF).
Proof. vm_compute. reflexivity. Abort.
Goal (* reader_vec_2_bytewise *) run [WithFormat RawFormat] (chunks 1000 1 [82;72;76;74;78;81;72;77;75;207;64;98;33;184;8;49;64;0;0;0;255;255]%N) = Some ([32;97;98;99;100;32;101;102;103;104;32;97;98;99;100;32;101;102;103;104;32;101;102;103;104;32;97;98;99;100;32;97;98;99;100;32;101;102;103;104;32]%N, Some EOF).
Proof. vm_compute. reflexivity. Abort.
(* repetitive-2 *)
Goal (* reader_vec_3 *) run [WithFormat RawFormat; WithDictionary (Some [32;97;98;99;100;32;101;102;103;104;32]%N)] [([66;98;34;88;8;46;66;12;16;0;0;255;255]%N, None)] = Some ([32;97;98;99;100;32;101;102;103;104;32;97;98;99;100;32;101;102;103;104;32;101;102;103;104;32;97;98;99;100;32;97;98;99;100;32;101;102;103;104;32]%N, Some EOF).
Proof. vm_compute. reflexivity. Abort.
Goal (* reader_vec_3_bytewise *) run [WithFormat RawFormat; WithDictionary (Some [32;97;98;99;100;32;101;102;103;104;32]%N)] (chunks 1000 1 [66;98;34;88;8;46;66;12;16;0;0;255;255]%N) = Some ([32;97;98;99;100;32;101;102;103;104;32;97;98;99;100;32;101;102;103;104;32;101;102;103;104;32;97;98;99;100;32;97;98;99;100;32;101;102;103;104;32]%N, Some EOF).
Proof. vm_compute. reflexivity. Abort.
Definition lipsum_gz : list N := [31;139;8;0;0;0;0;0;2;3;181;91;219;110;228;198;17;125;239;175;224;7;16;250;129;60;25;113;2;24;112;110;48;148;247;22;135;210;118;48;67;142;73;182;160;207;79;85;157;186;113;180;107;111;2;24;48;188;187;210;12;187;187;46;167;78;157;46;254;188;110;243;109;104;247;189;223;134;203;122;93;183;97;111;199;80;111;243;49;14;211;186;236;243;116;204;71;223;134;122;105;247;182;79;109;121;27;230;107;59;158;134;127;110;117;222;231;229;24;246;105;190;206;91;219;127;237;115;153;95;95;219;212;248;243;239;252;169;113;152;223;230;99;136;159;174;219;212;206;143;165;39;253;229;104;245;54;188;214;62;181;151;190;15;75;219;219;176;207;151;114;171;215;121;239;245;82;135;91;253;104;183;190;63;13;127;239;215;43;125;182;94;27;173;118;12;247;126;125;111;75;221;134;121;171;188;88;31;142;182;76;237;210;105;91;235;165;173;195;190;94;248;33;178;141;167;242;203;124;25;246;78;135;184;211;17;231;109;221;135;99;190;94;251;62;14;191;246;182;15;247;117;59;142;118;172;186;205;182;28;243;118;33;179;116;218;227;191;186;28;144;254;62;44;125;153;104;111;157;142;252;52;252;77;254;28;246;250;214;232;187;244;192;190;145;153;6;250;25;63;86;78;191;110;180;195;89;77;252;218;22;57;36;153;71;79;51;44;235;82;96;121;250;33;29;156;142;55;77;253;182;215;101;184;173;215;107;147;99;47;19;25;65;86;184;214;169;243;255;201;111;234;163;247;202;159;162;125;241;211;222;219;81;231;177;108;253;216;104;185;107;123;161;115;218;74;117;194;198;6;58;35;253;167;207;77;254;163;53;222;150;170;78;219;15;122;248;237;182;94;214;162;246;126;42;229;199;117;153;167;100;101;254;84;165;255;250;27;125;219;253;60;242;82;239;117;107;112;231;117;184;127;33;19;28;91;125;26;254;77;223;32;11;92;251;173;188;208;230;22;54;48;76;3;31;210;195;238;228;20;10;172;89;118;4;15;157;127;38;222;28;126;162;127;190;205;219;112;105;111;180;198;222;110;229;210;27;60;249;58;179;65;174;125;58;232;171;110;161;167;129;3;224;244;36;137;210;161;110;83;151;232;121;239;215;123;63;234;49;15;149;62;81;166;190;177;181;234;20;139;145;71;248;0;180;135;165;221;176;216;252;65;199;159;200;158;227;192;182;177;216;196;30;252;137;79;197;66;72;55;199;121;55;14;119;50;75;163;195;83;188;15;188;125;218;208;56;28;228;141;163;193;31;18;248;18;144;20;108;235;246;210;82;142;241;190;7;90;74;50;6;123;48;151;81;126;126;169;59;108;247;238;38;79;153;40;113;118;20;251;120;41;8;145;215;58;53;218;30;45;246;3;159;131;114;77;50;110;90;183;59;157;254;58;175;28;174;30;197;20;56;55;178;101;191;145;105;251;126;39;111;146;35;230;210;175;116;130;137;210;46;135;214;76;199;167;165;158;134;63;111;85;163;66;49;226;152;111;148;122;48;166;100;173;158;122;44;158;223;26;206;18;102;22;205;111;91;125;111;4;14;228;183;107;123;235;244;19;67;174;97;251;178;46;147;227;5;229;196;251;188;109;181;236;156;78;124;252;75;91;224;0;241;152;230;82;130;52;95;87;205;51;32;221;135;70;185;71;214;41;6;13;122;24;217;121;70;53;198;22;142;25;129;20;50;234;188;193;76;3;91;84;97;193;44;189;23;142;181;161;221;200;192;151;70;191;104;11;61;246;90;119;10;188;251;193;187;57;232;147;7;65;226;58;181;149;76;73;80;76;7;38;95;87;206;99;50;45;111;120;230;189;46;253;165;213;178;172;59;101;218;40;63;163;60;157;239;7;1;221;151;70;59;168;51;111;203;226;16;57;171;72;117;242;242;250;66;219;166;35;253;167;239;199;90;162;30;88;22;135;233;247;195;35;199;66;149;60;222;94;41;18;56;156;41;157;19;170;106;42;107;90;206;253;105;248;43;129;241;28;150;80;240;43;0;41;2;58;10;179;234;133;33;99;199;240;190;94;251;113;103;192;232;4;175;18;148;97;65;77;170;17;112;86;150;153;143;171;49;193;123;30;135;118;177;144;18;168;151;104;164;159;161;178;153;129;238;235;222;231;13;88;192;191;69;16;20;199;147;209;29;175;8;172;81;66;63;184;52;203;139;191;167;114;133;115;117;253;139;227;159;64;143;165;148;236;39;229;85;164;49;64;91;23;25;3;137;56;150;37;254;11;57;189;106;214;82;136;237;71;85;36;228;50;53;79;228;255;221;78;189;215;123;155;23;130;206;138;213;173;78;42;54;193;242;133;35;241;249;208;34;34;117;111;252;4;159;10;161;130;91;225;106;11;6;118;206;211;240;51;167;90;249;63;56;134;97;144;39;182;214;25;14;59;68;157;255;70;55;89;39;243;130;150;93;179;61;89;169;11;82;94;163;104;39;226;194;56;192;181;140;62;105;232;197;120;176;210;215;36;91;45;222;156;49;48;96;71;196;113;136;156;106;155;217;159;182;70;102;160;167;224;220;78;114;94;55;58;101;163;19;252;110;174;151;223;200;245;225;247;114;61;162;135;9;149;194;151;184;157;242;22;199;211;50;109;217;118;161;200;144;100;147;98;131;195;59;19;162;148;150;136;120;159;191;180;137;17;87;138;207;203;23;249;88;113;115;184;133;57;45;17;244;20;99;130;38;195;203;181;82;118;28;246;39;106;178;45;158;131;139;40;214;190;87;205;177;247;121;161;35;29;86;55;233;4;19;195;105;227;114;210;183;250;162;148;211;225;225;214;144;251;248;186;123;227;58;159;25;193;80;35;219;227;135;250;112;62;88;74;51;253;169;68;96;9;68;39;187;178;41;179;157;207;20;32;162;24;108;144;11;28;253;9;166;165;12;131;214;150;194;230;103;41;78;40;239;125;99;10;114;8;59;72;201;130;8;36;192;100;215;35;202;192;0;104;61;50;22;145;71;3;60;102;7;5;188;52;246;82;35;206;225;24;193;68;219;184;177;219;168;110;48;59;42;245;88;114;210;106;237;117;16;31;149;181;130;143;102;255;208;2;94;88;81;8;237;159;37;8;165;109;148;162;12;52;148;121;150;103;185;226;150;111;93;11;81;156;11;59;44;96;68;19;190;237;185;11;240;211;99;101;110;34;8;63;127;120;220;58;51;229;172;209;53;133;88;71;39;18;237;143;55;20;31;194;38;78;124;23;94;242;13;176;243;75;90;216;178;204;191;71;249;40;1;226;27;176;26;68;191;112;35;8;144;18;218;180;247;74;91;41;8;30;133;70;113;22;50;77;179;93;240;221;11;138;226;144;19;164;76;219;130;28;122;161;15;250;154;139;47;10;162;192;249;125;107;183;38;0;231;208;198;21;172;88;145;79;97;102;71;153;8;185;174;77;98;191;206;127;98;24;82;75;218;209;114;1;29;131;79;112;253;33;12;31;13;162;148;101;153;231;205;100;197;126;109;63;72;9;72;29;134;59;195;250;78;3;164;19;57;140;126;229;167;165;192;178;92;202;70;67;75;122;78;152;180;78;163;18;61;119;209;173;157;217;74;20;6;39;87;40;69;1;28;222;198;104;35;71;94;203;164;12;129;237;29;176;228;99;193;158;172;230;35;66;133;64;72;57;142;29;90;57;182;118;48;145;10;112;111;161;72;5;136;87;19;255;213;158;18;135;238;199;183;76;89;10;113;93;6;251;40;38;61;185;70;75;177;58;48;50;38;157;47;37;20;246;130;110;16;102;149;160;214;206;26;209;206;212;206;196;1;3;45;94;74;115;219;187;99;180;25;108;23;231;236;231;232;146;108;67;212;121;160;202;161;199;112;166;39;35;48;27;28;169;150;119;112;20;89;80;59;12;69;107;57;65;122;128;209;101;166;183;70;75;38;129;56;199;189;130;147;250;169;254;216;22;32;101;189;112;56;49;83;63;188;143;74;196;200;172;171;237;27;62;133;40;74;154;8;97;159;195;141;37;148;152;22;114;132;231;83;177;162;32;70;67;176;168;99;61;70;45;65;162;111;47;229;249;24;30;116;7;2;246;113;56;105;75;90;109;1;238;39;118;198;129;23;1;86;28;81;32;165;112;194;72;212;103;41;101;137;70;30;106;3;243;120;126;170;242;76;231;238;37;177;14;196;17;125;106;60;245;220;31;103;131;131;225;203;254;61;207;170;112;50;50;242;152;168;133;35;170;48;161;156;181;78;74;176;209;201;136;141;153;62;18;243;39;139;122;169;234;150;50;175;20;150;172;107;252;54;146;135;135;57;70;64;124;57;234;149;110;32;95;26;183;249;25;58;165;106;51;22;8;192;149;162;101;74;19;55;53;123;218;14;210;46;190;144;105;54;10;56;101;131;209;70;120;44;24;225;124;42;134;41;26;170;104;138;198;83;15;121;17;157;130;65;99;12;41;77;153;150;198;95;240;211;34;237;139;57;34;185;68;28;162;225;171;140;134;157;230;8;108;40;166;32;195;143;178;10;151;242;103;148;78;38;120;75;0;58;68;39;226;68;166;49;160;145;66;179;74;208;81;188;144;60;39;8;114;20;211;39;114;86;164;94;2;37;109;150;132;76;33;200;192;94;12;163;188;69;20;237;8;202;210;55;42;36;212;190;147;123;53;196;10;152;39;125;132;177;217;161;83;123;47;165;23;99;56;208;104;108;34;212;90;36;84;89;147;226;99;208;27;121;142;154;166;206;230;175;155;176;169;252;66;133;22;136;115;158;192;197;77;98;125;245;31;139;167;169;212;11;53;38;91;30;145;190;214;50;118;178;154;149;62;1;1;39;50;157;242;4;90;8;39;142;42;121;140;159;169;115;55;183;201;255;248;99;177;146;66;175;9;132;110;97;207;171;196;133;50;18;221;87;54;70;203;28;157;57;179;195;163;88;29;24;194;230;229;212;143;220;68;0;102;84;178;50;103;127;66;176;78;71;48;29;206;147;18;176;5;28;215;250;2;42;174;253;26;69;159;5;161;71;210;41;26;133;107;158;122;84;111;127;0;69;242;24;151;13;9;44;133;75;168;140;112;32;57;157;228;150;79;125;216;240;80;43;224;30;254;178;249;46;53;189;134;116;234;169;146;4;121;233;222;236;8;57;190;109;139;42;238;160;201;116;140;97;118;214;113;123;81;64;59;250;113;150;151;158;143;51;168;104;205;66;7;0;157;113;238;111;45;146;153;97;7;215;13;153;67;69;163;222;150;209;232;147;39;217;7;133;39;26;149;40;78;240;9;55;133;88;37;48;136;168;224;23;6;117;182;96;149;48;187;146;109;171;158;141;165;27;67;27;239;139;208;148;156;4;248;135;154;80;17;247;14;44;193;22;152;7;75;201;181;93;163;218;107;20;216;15;89;164;55;238;229;76;27;143;86;136;97;255;154;80;48;134;194;189;83;104;93;188;2;136;114;162;170;178;21;52;135;26;168;105;17;77;234;61;99;5;210;169;59;28;73;48;70;9;85;18;84;3;74;35;160;17;12;153;104;104;180;80;136;223;90;212;6;151;254;61;225;162;31;145;138;173;109;125;73;112;37;194;169;108;144;217;128;68;182;30;53;46;18;68;38;178;139;138;144;126;96;170;167;34;21;160;70;225;4;220;165;90;4;218;204;232;129;176;212;82;156;24;252;196;190;183;221;37;90;169;98;15;82;237;20;175;92;114;253;154;100;180;71;62;168;157;37;161;21;57;90;68;129;80;146;204;21;165;8;101;212;78;232;214;32;225;240;213;138;157;217;142;166;228;82;75;80;51;252;226;205;71;76;149;127;72;3;166;151;95;245;88;69;74;150;53;95;208;17;179;61;36;150;168;44;214;141;60;223;184;222;220;86;22;190;136;77;84;170;3;44;1;109;237;194;150;102;75;117;23;35;165;30;123;17;145;10;241;195;169;253;131;15;121;251;170;187;194;189;229;127;210;93;191;90;36;36;13;39;80;206;118;41;114;127;234;91;73;164;66;179;76;66;206;80;7;25;168;80;148;88;153;20;125;234;159;179;40;162;148;36;239;33;240;82;67;148;8;59;43;34;185;20;32;202;164;141;42;12;242;216;112;202;48;228;12;109;16;215;102;168;55;242;28;219;124;190;50;54;4;113;218;196;141;235;156;164;40;89;201;163;188;167;192;226;67;177;38;152;149;242;80;214;164;133;116;182;42;49;233;69;38;221;63;30;177;146;74;98;206;164;35;13;80;148;218;130;199;0;174;71;13;4;147;255;132;105;124;69;11;57;138;28;23;50;132;162;165;5;188;114;193;53;1;161;227;146;88;79;61;201;240;1;59;75;137;114;254;59;63;16;13;171;114;170;161;122;207;38;197;34;250;110;9;6;143;169;18;34;140;146;204;168;115;1;41;242;165;168;172;28;108;231;198;47;242;220;67;209;239;4;68;72;43;25;15;93;119;5;40;226;206;131;65;210;127;1;12;115;24;20;11;152;103;230;143;162;178;51;213;188;9;100;154;246;104;109;25;23;146;224;49;30;72;76;141;191;161;175;149;111;232;107;195;119;235;107;230;90;61;115;161;39;105;227;213;82;167;149;105;156;221;79;25;93;27;221;219;92;12;3;65;80;209;138;56;27;89;16;140;212;146;70;0;92;89;138;110;83;43;29;72;155;123;202;179;231;233;156;55;221;196;232;148;51;204;165;20;131;3;24;78;88;96;155;148;166;130;206;150;159;8;94;34;128;203;140;38;238;218;119;218;130;25;117;153;15;195;234;83;207;76;212;53;29;64;234;31;42;121;136;173;31;188;103;151;109;237;128;35;154;120;21;143;140;161;23;185;35;61;95;7;171;230;134;210;87;165;1;244;54;92;173;234;188;201;149;66;85;182;203;179;107;56;2;148;227;217;44;245;212;212;70;113;140;43;91;46;18;15;30;72;116;211;217;20;36;147;57;112;64;199;74;2;166;99;100;162;60;220;248;112;220;140;134;4;126;213;66;229;252;196;45;31;241;83;110;121;149;96;165;203;39;191;103;60;178;4;16;148;204;123;76;31;136;209;155;38;33;254;148;1;190;229;232;34;61;211;65;154;44;147;71;243;177;52;201;229;81;229;49;81;236;23;16;141;171;57;32;118;37;173;126;154;17;232;99;36;76;97;136;1;185;20;138;161;152;53;2;109;165;103;201;185;98;171;142;186;71;1;193;228;207;143;177;216;106;146;142;82;30;4;12;29;117;208;57;7;169;80;54;171;9;11;168;52;235;138;124;160;215;113;49;208;100;51;75;1;91;198;140;51;82;155;215;237;218;90;238;227;34;233;4;234;172;84;69;151;226;96;167;50;135;82;105;141;237;128;123;237;140;44;112;36;74;92;43;138;235;227;249;6;148;29;189;205;100;123;43;176;176;35;0;167;233;73;44;218;165;217;14;208;75;141;166;92;217;44;1;156;209;232;60;5;203;65;182;105;201;228;136;3;33;39;5;180;89;28;195;117;120;76;254;117;31;137;91;161;99;125;69;86;16;165;40;145;221;230;102;210;208;75;247;24;224;36;58;111;1;126;32;75;183;197;32;193;244;107;99;186;207;71;186;15;82;47;200;144;82;158;213;147;53;34;219;108;186;79;122;104;173;59;54;66;102;84;249;205;186;110;85;9;198;68;25;89;182;3;113;206;245;200;210;46;69;149;142;116;112;109;181;142;249;36;142;94;109;4;15;249;33;227;104;1;78;151;115;173;50;173;13;119;142;61;221;25;192;1;25;0;63;175;22;215;54;185;58;234;6;157;100;226;113;206;150;145;58;250;48;29;160;185;121;108;82;9;17;51;229;133;19;101;66;134;180;203;185;241;231;1;132;226;141;95;232;20;81;196;3;20;33;97;243;26;1;106;170;49;123;52;37;137;226;67;204;7;250;236;131;34;209;239;91;117;138;33;13;31;95;100;46;36;28;175;78;37;55;111;28;139;50;29;133;42;169;72;34;54;178;214;214;179;193;76;14;138;161;235;199;16;14;131;221;32;115;25;41;217;130;245;215;175;78;13;121;145;76;199;140;208;135;129;35;64;192;178;217;6;122;197;175;54;176;66;241;80;48;181;211;215;210;150;12;229;55;92;201;20;130;151;228;203;152;6;75;227;138;54;237;42;142;196;150;115;19;236;6;215;165;140;85;184;90;65;117;69;216;234;211;240;135;245;164;122;34;204;8;80;250;234;104;73;82;100;189;224;233;242;194;138;69;111;210;219;120;213;226;67;172;180;235;70;185;220;20;132;143;222;234;214;162;254;51;201;80;19;225;246;44;235;81;194;179;240;99;67;36;70;92;103;35;30;164;54;68;105;106;229;143;152;55;185;38;117;138;73;90;154;182;48;229;83;158;39;97;1;229;0;209;238;57;168;209;194;56;235;178;245;108;154;6;86;27;61;150;240;251;194;108;79;143;212;15;155;78;213;150;195;119;236;68;202;167;34;104;111;114;251;105;51;61;56;61;166;43;163;113;155;82;127;105;85;69;175;30;36;245;84;61;73;83;76;185;104;85;29;119;69;178;90;167;8;228;78;126;64;70;199;0;133;87;14;191;49;120;62;76;132;21;153;91;250;156;81;44;158;8;75;190;38;116;225;8;157;210;57;219;188;113;31;93;45;237;209;100;113;109;143;120;17;50;173;225;214;85;75;40;184;54;126;120;166;0;34;183;152;49;163;23;72;129;137;39;198;78;187;140;65;150;5;252;186;171;88;132;254;248;52;31;106;188;203;235;1;142;103;247;4;204;29;76;146;208;185;155;0;227;126;2;52;15;1;203;109;216;77;102;170;204;6;237;162;218;113;91;98;212;21;114;110;183;251;38;201;25;201;132;128;206;0;26;132;135;156;66;6;250;138;93;159;17;76;6;235;212;177;20;191;45;64;201;51;50;157;238;206;98;200;216;111;61;164;243;7;107;137;145;168;160;202;249;173;130;209;168;106;141;97;33;157;5;164;32;3;86;91;134;202;192;191;79;8;130;129;4;159;87;214;33;164;17;197;48;38;38;184;171;77;83;93;241;37;187;201;59;12;100;51;27;231;206;244;84;118;109;106;68;38;16;116;61;17;206;144;69;193;131;213;120;207;156;238;126;45;180;31;9;78;144;124;250;43;184;225;249;240;126;166;242;85;33;58;79;111;233;127;49;29;83;57;169;190;64;96;240;106;184;64;7;47;105;74;82;199;26;32;158;5;193;112;38;137;44;203;210;121;14;25;38;17;89;79;153;161;154;61;196;134;17;254;60;12;99;141;112;216;68;33;77;142;193;109;130;142;204;27;104;249;12;55;95;89;24;38;154;61;44;2;242;155;19;82;121;168;154;168;11;157;72;231;171;134;68;237;237;91;251;17;243;155;82;80;116;38;81;233;154;49;91;191;132;75;250;181;227;0;183;19;60;65;16;115;97;33;194;248;224;146;214;2;132;17;228;130;244;38;0;136;44;67;189;73;114;194;224;185;32;130;171;162;29;56;13;116;189;9;57;48;130;170;227;246;213;234;24;82;50;238;186;220;32;218;225;203;98;174;28;22;191;182;113;123;233;240;181;88;195;92;234;168;49;226;25;128;54;149;171;180;135;36;68;114;232;148;0;85;99;4;194;24;7;3;22;200;229;141;235;26;211;231;139;178;34;75;169;244;22;175;104;28;158;47;210;173;251;249;244;181;141;184;102;115;120;21;160;148;25;7;90;51;110;248;173;17;62;93;64;180;52;40;97;211;138;122;135;134;73;114;215;220;162;11;91;209;108;231;107;36;25;81;36;234;148;103;203;146;130;185;46;159;174;195;139;0;131;107;142;93;50;204;111;174;44;149;209;243;243;215;61;211;33;172;167;203;77;45;180;101;238;214;46;233;160;131;10;66;110;33;103;177;35;178;200;210;77;105;141;15;220;35;181;202;39;57;72;102;29;234;113;126;33;132;15;46;26;52;49;19;108;205;223;178;105;10;156;70;247;57;18;99;138;234;226;88;70;223;148;153;228;52;100;186;164;164;209;156;208;27;100;180;61;34;34;89;111;78;223;87;52;200;189;80;0;154;202;33;222;226;40;91;51;8;10;176;77;181;34;90;19;27;167;162;205;171;162;106;60;118;84;96;12;45;219;136;148;79;41;69;201;145;130;193;39;213;96;206;21;7;197;139;45;153;186;46;73;50;132;202;73;189;211;190;79;38;106;241;190;81;162;240;138;212;233;29;46;176;103;236;156;141;238;85;194;46;36;98;116;147;11;143;5;57;238;13;228;174;217;182;228;140;89;28;161;55;226;122;111;194;127;198;184;115;186;88;16;226;39;132;88;71;175;60;177;85;49;87;22;226;215;131;178;253;163;60;22;23;224;169;17;3;93;71;56;189;118;156;160;239;106;29;190;255;59;105;100;113;31;233;10;54;90;84;88;97;124;152;197;64;249;247;65;44;126;205;47;17;106;23;61;68;100;16;200;8;2;149;94;44;145;95;163;228;88;172;193;172;50;78;108;141;212;186;83;195;32;111;54;8;102;130;211;217;187;104;104;30;78;175;68;230;247;243;164;160;226;200;154;11;172;203;150;48;73;76;230;97;118;135;149;17;176;203;239;146;211;203;247;200;233;195;215;228;244;42;87;171;65;28;55;158;99;83;53;137;109;45;233;208;164;27;115;59;63;14;12;5;233;59;13;25;37;193;85;239;119;48;169;41;46;68;173;57;30;101;29;238;50;245;234;211;186;27;37;38;136;230;40;233;218;166;121;158;2;28;71;211;25;49;24;158;109;7;251;179;2;86;2;114;224;55;187;173;244;151;8;216;44;233;194;59;226;199;43;41;194;98;132;187;240;82;217;73;253;7;199;146;241;56;84;99;61;234;77;95;154;92;228;181;63;116;38;118;132;120;31;180;196;13;38;250;100;29;201;148;117;210;198;2;124;33;177;83;253;49;224;198;237;2;43;139;134;185;50;4;169;225;188;159;110;107;233;209;231;87;156;160;87;107;202;159;222;19;137;166;214;50;254;52;149;134;1;69;224;246;114;126;103;200;94;152;72;9;250;251;163;237;223;127;245;230;42;136;53;115;33;47;107;211;11;232;64;126;3;160;252;200;85;185;171;162;25;228;119;245;161;188;130;25;195;161;246;210;217;27;36;209;208;141;180;185;227;143;91;243;99;96;147;2;46;253;77;9;204;249;74;212;241;84;54;232;79;240;59;28;25;53;188;6;241;136;151;139;69;108;132;178;158;222;75;128;244;142;32;210;207;88;27;0;62;191;231;215;180;237;21;104;188;53;202;243;154;122;151;108;227;215;94;249;117;59;160;130;42;251;154;179;164;216;248;51;147;145;252;113;246;214;185;106;39;250;166;139;82;82;111;149;228;157;113;139;112;67;220;52;123;106;99;155;128;204;116;35;101;158;119;93;156;172;6;213;66;29;151;223;49;235;71;190;26;178;193;28;179;150;214;43;46;106;60;121;205;116;44;231;249;104;226;113;148;141;152;37;178;206;189;233;235;20;159;140;152;198;236;144;50;26;56;53;94;137;40;255;5;166;111;247;223;51;64;0;0]%N.
Goal (* big_gz_auto *) match run [WithFormat DefaultFormat] (chunks 100 1024 lipsum_gz) with
  | Some (d, Some EOF) => ((lenN d =? 16435) && (spec_crc32 d =? 3757535142))%N | _ => false end = true.
Proof. vm_compute. reflexivity. Abort.
