(** Sessions recorded by the driver's own tests against Neo4j 3.4.6
    (recordings/*.json), written by tools/mkrecordings.py: events with
    their direction ([true]: written by the driver) and bytes. *)
From Coq Require Import ZArith List.
From Verif Require Import GoPrims.
Import ListNotations.
Open Scope Z_scope.

Definition times (n : Z) (p : bytes) : bytes := Z.iter n (app p) [].

(** recordings/TestBoltConn_Close.json *)
Definition rec_TestBoltConn_Close : list (bool * bytes) :=
  [(true, [96;96;176;23;0;0;0;1;0;0;0;0;0;0;0;0;0;0;0;0]);
   (false, [0;0;0;1]);
   (true, [0;36;178;1;208;19;71;111;108;97;110;103;78;101;111;52;106;66;111;108;116;47;49;46;48;161;134;115;99;104;101;109;101;132;110;111;110;101;0;0]);
   (false, [0;22;177;112;161;134;115;101;114;118;101;114;139;78;101;111;52;106;47;51;46;52;46;54;0;0])].

(** recordings/TestBoltConn_CloseStatementOnError.json *)
Definition rec_TestBoltConn_CloseStatementOnError : list (bool * bytes) :=
  [(true, [96;96;176;23;0;0;0;1;0;0;0;0;0;0;0;0;0;0;0;0]);
   (false, [0;0;0;1]);
   (true, [0;36;178;1;208;19;71;111;108;97;110;103;78;101;111;52;106;66;111;108;116;47;49;46;48;161;134;115;99;104;101;109;101;132;110;111;110;101;0;0]);
   (false, [0;22;177;112;161;134;115;101;114;118;101;114;139;78;101;111;52;106;47;51;46;52;46;54;0;0]);
   (true, [0;60;178;16;208;55;84;72;73;83;32;73;83;32;65;32;66;65;68;32;81;85;69;82;89;32;65;78;68;32;83;72;79;85;76;68;32;82;69;84;85;82;78;32;65;32;70;65;73;76;85;82;69;32;77;69;83;83;65;71;69;160;0;0]);
   (true, [0;2;176;63;0;0]);
   (false, [0;183;177;127;162;132;99;111;100;101;208;37;78;101;111;46;67;108;105;101;110;116;69;114;114;111;114;46;83;116;97;116;101;109;101;110;116;46;83;121;110;116;97;120;69;114;114;111;114;135;109;101;115;115;97;103;101;208;126;73;110;118;97;108;105;100;32;105;110;112;117;116;32;39;84;39;58;32;101;120;112;101;99;116;101;100;32;60;105;110;105;116;62;32;40;108;105;110;101;32;49;44;32;99;111;108;117;109;110;32;49;32;40;111;102;102;115;101;116;58;32;48;41;41;10;34;84;72;73;83;32;73;83;32;65;32;66;65;68;32;81;85;69;82;89;32;65;78;68;32;83;72;79;85;76;68;32;82;69;84;85;82;78;32;65;32;70;65;73;76;85;82;69;32;77;69;83;83;65;71;69;34;10;32;94;0;0]);
   (true, [0;2;176;14;0;0]);
   (false, [0;2;176;126;0;0]);
   (false, [0;3;177;112;160;0;0]);
   (true, [0;13;178;16;137;82;69;84;85;82;78;32;49;59;160;0;0]);
   (true, [0;2;176;63;0;0]);
   (false, [0;38;177;112;162;208;22;114;101;115;117;108;116;95;97;118;97;105;108;97;98;108;101;95;97;102;116;101;114;2;134;102;105;101;108;100;115;145;129;49;0;0])].

(** recordings/TestBoltConn_ExecNeo.json *)
Definition rec_TestBoltConn_ExecNeo : list (bool * bytes) :=
  [(true, [96;96;176;23;0;0;0;1;0;0;0;0;0;0;0;0;0;0;0;0]);
   (false, [0;0;0;1]);
   (true, [0;36;178;1;208;19;71;111;108;97;110;103;78;101;111;52;106;66;111;108;116;47;49;46;48;161;134;115;99;104;101;109;101;132;110;111;110;101;0;0]);
   (false, [0;3;177;112;160;0;0]);
   (true, [0;139;178;16;208;96;67;82;69;65;84;69;32;40;102;58;70;79;79;32;123;97;58;32;123;97;125;44;32;98;58;32;123;98;125;44;32;99;58;32;123;99;125;44;32;100;58;32;123;100;125;44;32;101;58;32;123;101;125;44;32;102;58;32;123;102;125;44;32;103;58;32;123;103;125;44;32;104;58;32;123;104;125;125;41;45;91;98;58;66;65;82;93;45;62;40;99;58;66;65;90;41;168;129;98;1;129;99;195;129;100;192;129;101;147;1;2;3;129;102;193;64;11;51;51;51;51;51;51;129;103;255;129;104;194;129;97;131;102;111;111;0;0]);
   (true, [0;2;176;63;0;0]);
   (false, [0;11;177;112;161;134;102;105;101;108;100;115;144;0;0]);
   (false, [0;86;177;112;162;133;115;116;97;116;115;164;140;108;97;98;101;108;115;45;97;100;100;101;100;2;208;21;114;101;108;97;116;105;111;110;115;104;105;112;115;45;99;114;101;97;116;101;100;1;141;110;111;100;101;115;45;99;114;101;97;116;101;100;2;142;112;114;111;112;101;114;116;105;101;115;45;115;101;116;7;132;116;121;112;101;129;119;0;0]);
   (true, [0;35;178;16;208;30;77;65;84;67;72;32;40;102;58;70;79;79;41;32;83;69;84;32;102;46;97;32;61;32;34;98;97;114;34;59;160;0;0]);
   (true, [0;2;176;63;0;0]);
   (false, [0;11;177;112;161;134;102;105;101;108;100;115;144;0;0]);
   (false, [0;33;177;112;162;133;115;116;97;116;115;161;142;112;114;111;112;101;114;116;105;101;115;45;115;101;116;1;132;116;121;112;101;129;119;0;0]);
   (true, [0;50;178;16;208;45;77;65;84;67;72;32;40;102;58;70;79;79;41;45;91;98;58;66;65;82;93;45;62;40;99;58;66;65;90;41;32;68;69;76;69;84;69;32;102;44;32;98;44;32;99;160;0;0]);
   (true, [0;2;176;63;0;0]);
   (false, [0;11;177;112;161;134;102;105;101;108;100;115;144;0;0]);
   (false, [0;56;177;112;162;133;115;116;97;116;115;162;141;110;111;100;101;115;45;100;101;108;101;116;101;100;2;208;21;114;101;108;97;116;105;111;110;115;104;105;112;115;45;100;101;108;101;116;101;100;1;132;116;121;112;101;129;119;0;0])].

(** recordings/TestBoltConn_FailureMessageError.json *)
Definition rec_TestBoltConn_FailureMessageError : list (bool * bytes) :=
  [(true, [96;96;176;23;0;0;0;1;0;0;0;0;0;0;0;0;0;0;0;0]);
   (false, [0;0;0;1]);
   (true, [0;36;178;1;208;19;71;111;108;97;110;103;78;101;111;52;106;66;111;108;116;47;49;46;48;161;134;115;99;104;101;109;101;132;110;111;110;101;0;0]);
   (false, [0;22;177;112;161;134;115;101;114;118;101;114;139;78;101;111;52;106;47;51;46;52;46;54;0;0]);
   (true, [0;60;178;16;208;55;84;72;73;83;32;73;83;32;65;32;66;65;68;32;81;85;69;82;89;32;65;78;68;32;83;72;79;85;76;68;32;82;69;84;85;82;78;32;65;32;70;65;73;76;85;82;69;32;77;69;83;83;65;71;69;160;0;0]);
   (true, [0;2;176;63;0;0]);
   (false, [0;183;177;127;162;132;99;111;100;101;208;37;78;101;111;46;67;108;105;101;110;116;69;114;114;111;114;46;83;116;97;116;101;109;101;110;116;46;83;121;110;116;97;120;69;114;114;111;114;135;109;101;115;115;97;103;101;208;126;73;110;118;97;108;105;100;32;105;110;112;117;116;32;39;84;39;58;32;101;120;112;101;99;116;101;100;32;60;105;110;105;116;62;32;40;108;105;110;101;32;49;44;32;99;111;108;117;109;110;32;49;32;40;111;102;102;115;101;116;58;32;48;41;41;10;34;84;72;73;83;32;73;83;32;65;32;66;65;68;32;81;85;69;82;89;32;65;78;68;32;83;72;79;85;76;68;32;82;69;84;85;82;78;32;65;32;70;65;73;76;85;82;69;32;77;69;83;83;65;71;69;34;10;32;94;0;0]);
   (true, [0;2;176;14;0;0]);
   (false, [0;2;176;126;0;0]);
   (false, [0;3;177;112;160;0;0])].

(** recordings/TestBoltConn_Ignored.json *)
Definition rec_TestBoltConn_Ignored : list (bool * bytes) :=
  [(true, [96;96;176;23;0;0;0;1;0;0;0;0;0;0;0;0;0;0;0;0]);
   (false, [0;0;0;1]);
   (true, [0;36;178;1;208;19;71;111;108;97;110;103;78;101;111;52;106;66;111;108;116;47;49;46;48;161;134;115;99;104;101;109;101;132;110;111;110;101;0;0]);
   (false, [0;22;177;112;161;134;115;101;114;118;101;114;139;78;101;111;52;106;47;51;46;52;46;54;0;0]);
   (true, [0;34;178;16;140;115;121;110;116;97;120;32;101;114;114;111;114;162;131;98;97;114;193;64;1;153;153;153;153;153;154;131;102;111;111;1;0;0]);
   (true, [0;2;176;63;0;0]);
   (false, [0;156;177;127;162;132;99;111;100;101;208;37;78;101;111;46;67;108;105;101;110;116;69;114;114;111;114;46;83;116;97;116;101;109;101;110;116;46;83;121;110;116;97;120;69;114;114;111;114;135;109;101;115;115;97;103;101;208;99;73;110;118;97;108;105;100;32;105;110;112;117;116;32;39;121;39;58;32;101;120;112;101;99;116;101;100;32;39;116;47;84;39;44;32;39;101;47;69;39;32;111;114;32;39;110;47;78;39;32;40;108;105;110;101;32;49;44;32;99;111;108;117;109;110;32;50;32;40;111;102;102;115;101;116;58;32;49;41;41;10;34;115;121;110;116;97;120;32;101;114;114;111;114;34;10;32;32;94;0;0]);
   (true, [0;2;176;14;0;0]);
   (false, [0;2;176;126;0;0]);
   (false, [0;3;177;112;160;0;0]);
   (true, [0;13;178;16;137;82;69;84;85;82;78;32;49;59;160;0;0]);
   (true, [0;2;176;63;0;0]);
   (false, [0;38;177;112;162;208;22;114;101;115;117;108;116;95;97;118;97;105;108;97;98;108;101;95;97;102;116;101;114;1;134;102;105;101;108;100;115;145;129;49;0;0]);
   (false, [0;4;177;113;145;1;0;0]);
   (false, [0;34;177;112;162;208;21;114;101;115;117;108;116;95;99;111;110;115;117;109;101;100;95;97;102;116;101;114;0;132;116;121;112;101;129;114;0;0])].

(** recordings/TestBoltConn_IgnoredPipeline.json *)
Definition rec_TestBoltConn_IgnoredPipeline : list (bool * bytes) :=
  [(true, [96;96;176;23;0;0;0;1;0;0;0;0;0;0;0;0;0;0;0;0]);
   (false, [0;0;0;1]);
   (true, [0;36;178;1;208;19;71;111;108;97;110;103;78;101;111;52;106;66;111;108;116;47;49;46;48;161;134;115;99;104;101;109;101;132;110;111;110;101;0;0]);
   (false, [0;22;177;112;161;134;115;101;114;118;101;114;139;78;101;111;52;106;47;51;46;52;46;54;0;0]);
   (true, [0;13;178;16;137;82;69;84;85;82;78;32;49;59;160;0;0]);
   (true, [0;2;176;63;0;0]);
   (false, [0;38;177;112;162;208;22;114;101;115;117;108;116;95;97;118;97;105;108;97;98;108;101;95;97;102;116;101;114;1;134;102;105;101;108;100;115;145;129;49;0;0]);
   (false, [0;4;177;113;145;1;0;0]);
   (false, [0;34;177;112;162;208;21;114;101;115;117;108;116;95;99;111;110;115;117;109;101;100;95;97;102;116;101;114;1;132;116;121;112;101;129;114;0;0])].

(** recordings/TestBoltConn_PipelineExec.json *)
Definition rec_TestBoltConn_PipelineExec : list (bool * bytes) :=
  [(true, [96;96;176;23;0;0;0;1;0;0;0;0;0;0;0;0;0;0;0;0]);
   (false, [0;0;0;1]);
   (true, [0;36;178;1;208;19;71;111;108;97;110;103;78;101;111;52;106;66;111;108;116;47;49;46;48;161;134;115;99;104;101;109;101;132;110;111;110;101;0;0]);
   (false, [0;3;177;112;160;0;0]);
   (true, [0;45;178;16;208;31;67;82;69;65;84;69;32;40;102;58;70;79;79;32;123;97;58;32;123;97;125;44;32;98;58;32;123;98;125;125;41;162;129;97;1;129;98;131;116;119;111;0;0]);
   (true, [0;2;176;63;0;0]);
   (true, [0;47;178;16;208;31;67;82;69;65;84;69;32;40;98;58;66;65;82;32;123;97;58;32;123;97;125;44;32;98;58;32;123;98;125;125;41;162;129;97;2;129;98;133;116;104;114;101;101;0;0]);
   (true, [0;2;176;63;0;0]);
   (true, [0;46;178;16;208;31;67;82;69;65;84;69;32;40;99;58;66;65;90;32;123;97;58;32;123;97;125;44;32;98;58;32;123;98;125;125;41;162;129;98;132;102;111;117;114;129;97;3;0;0]);
   (true, [0;2;176;63;0;0]);
   (false, [0;11;177;112;161;134;102;105;101;108;100;115;144;0;0]);
   (false, [0;62;177;112;162;133;115;116;97;116;115;163;140;108;97;98;101;108;115;45;97;100;100;101;100;1;141;110;111;100;101;115;45;99;114;101;97;116;101;100;1;142;112;114;111;112;101;114;116;105;101;115;45;115;101;116;2;132;116;121;112;101;129;119;0;0]);
   (false, [0;11;177;112;161;134;102;105;101;108;100;115;144;0;0]);
   (false, [0;62;177;112;162;133;115;116;97;116;115;163;140;108;97;98;101;108;115;45;97;100;100;101;100;1;141;110;111;100;101;115;45;99;114;101;97;116;101;100;1;142;112;114;111;112;101;114;116;105;101;115;45;115;101;116;2;132;116;121;112;101;129;119;0;0]);
   (false, [0;11;177;112;161;134;102;105;101;108;100;115;144;0;0]);
   (false, [0;62;177;112;162;133;115;116;97;116;115;163;140;108;97;98;101;108;115;45;97;100;100;101;100;1;141;110;111;100;101;115;45;99;114;101;97;116;101;100;1;142;112;114;111;112;101;114;116;105;101;115;45;115;101;116;2;132;116;121;112;101;129;119;0;0]);
   (true, [0;52;178;16;208;47;77;65;84;67;72;32;40;102;58;70;79;79;41;44;32;40;98;58;66;65;82;41;44;32;40;99;58;66;65;90;41;32;114;101;116;117;114;110;32;102;44;32;98;44;32;99;59;160;0;0]);
   (false, [0;17;177;112;161;134;102;105;101;108;100;115;147;129;102;129;98;129;99;0;0]);
   (true, [0;2;176;63;0;0]);
   (false, [0;66;177;113;147;179;78;201;6;164;145;131;70;79;79;162;129;97;1;129;98;131;116;119;111;179;78;201;6;165;145;131;66;65;82;162;129;97;2;129;98;133;116;104;114;101;101;179;78;201;6;166;145;131;66;65;90;162;129;97;3;129;98;132;102;111;117;114;0;0]);
   (false, [0;10;177;112;161;132;116;121;112;101;129;114;0;0]);
   (true, [0;51;178;16;208;46;77;65;84;67;72;32;40;102;58;70;79;79;41;44;32;40;98;58;66;65;82;41;44;32;40;99;58;66;65;90;41;32;68;69;76;69;84;69;32;102;44;32;98;44;32;99;160;0;0]);
   (true, [0;2;176;63;0;0]);
   (false, [0;11;177;112;161;134;102;105;101;108;100;115;144;0;0]);
   (false, [0;32;177;112;162;133;115;116;97;116;115;161;141;110;111;100;101;115;45;100;101;108;101;116;101;100;3;132;116;121;112;101;129;119;0;0])].

(** recordings/TestBoltConn_PipelineQuery.json *)
Definition rec_TestBoltConn_PipelineQuery : list (bool * bytes) :=
  [(true, [96;96;176;23;0;0;0;1;0;0;0;0;0;0;0;0;0;0;0;0]);
   (false, [0;0;0;1]);
   (true, [0;36;178;1;208;19;71;111;108;97;110;103;78;101;111;52;106;66;111;108;116;47;49;46;48;161;134;115;99;104;101;109;101;132;110;111;110;101;0;0]);
   (false, [0;3;177;112;160;0;0]);
   (true, [0;54;178;16;208;40;67;82;69;65;84;69;32;40;102;58;70;79;79;32;123;97;58;32;123;97;125;44;32;98;58;32;123;98;125;125;41;32;82;69;84;85;82;78;32;102;162;129;97;1;129;98;131;116;119;111;0;0]);
   (true, [0;2;176;63;0;0]);
   (true, [0;56;178;16;208;40;67;82;69;65;84;69;32;40;98;58;66;65;82;32;123;97;58;32;123;97;125;44;32;98;58;32;123;98;125;125;41;32;82;69;84;85;82;78;32;98;162;129;97;2;129;98;133;116;104;114;101;101;0;0]);
   (true, [0;2;176;63;0;0]);
   (true, [0;55;178;16;208;40;67;82;69;65;84;69;32;40;99;58;66;65;90;32;123;97;58;32;123;97;125;44;32;98;58;32;123;98;125;125;41;32;82;69;84;85;82;78;32;99;162;129;97;3;129;98;132;102;111;117;114;0;0]);
   (true, [0;2;176;63;0;0]);
   (false, [0;13;177;112;161;134;102;105;101;108;100;115;145;129;102;0;0]);
   (false, [0;23;177;113;145;179;78;201;6;157;145;131;70;79;79;162;129;97;1;129;98;131;116;119;111;0;0]);
   (false, [0;63;177;112;162;133;115;116;97;116;115;163;140;108;97;98;101;108;115;45;97;100;100;101;100;1;141;110;111;100;101;115;45;99;114;101;97;116;101;100;1;142;112;114;111;112;101;114;116;105;101;115;45;115;101;116;2;132;116;121;112;101;130;114;119;0;0]);
   (false, [0;13;177;112;161;134;102;105;101;108;100;115;145;129;98;0;0]);
   (false, [0;25;177;113;145;179;78;201;6;158;145;131;66;65;82;162;129;97;2;129;98;133;116;104;114;101;101;0;0]);
   (false, [0;63;177;112;162;133;115;116;97;116;115;163;140;108;97;98;101;108;115;45;97;100;100;101;100;1;141;110;111;100;101;115;45;99;114;101;97;116;101;100;1;142;112;114;111;112;101;114;116;105;101;115;45;115;101;116;2;132;116;121;112;101;130;114;119;0;0]);
   (false, [0;13;177;112;161;134;102;105;101;108;100;115;145;129;99;0;0]);
   (false, [0;24;177;113;145;179;78;201;6;159;145;131;66;65;90;162;129;97;3;129;98;132;102;111;117;114;0;0]);
   (false, [0;63;177;112;162;133;115;116;97;116;115;163;140;108;97;98;101;108;115;45;97;100;100;101;100;1;141;110;111;100;101;115;45;99;114;101;97;116;101;100;1;142;112;114;111;112;101;114;116;105;101;115;45;115;101;116;2;132;116;121;112;101;130;114;119;0;0]);
   (true, [0;51;178;16;208;46;77;65;84;67;72;32;40;102;58;70;79;79;41;44;32;40;98;58;66;65;82;41;44;32;40;99;58;66;65;90;41;32;68;69;76;69;84;69;32;102;44;32;98;44;32;99;160;0;0]);
   (true, [0;2;176;63;0;0]);
   (false, [0;11;177;112;161;134;102;105;101;108;100;115;144;0;0]);
   (false, [0;32;177;112;162;133;115;116;97;116;115;161;141;110;111;100;101;115;45;100;101;108;101;116;101;100;3;132;116;121;112;101;129;119;0;0])].

(** recordings/TestBoltConn_SelectAll.json *)
Definition rec_TestBoltConn_SelectAll : list (bool * bytes) :=
  [(true, [96;96;176;23;0;0;0;1;0;0;0;0;0;0;0;0;0;0;0;0]);
   (false, [0;0;0;1]);
   (true, [0;36;178;1;208;19;71;111;108;97;110;103;78;101;111;52;106;66;111;108;116;47;49;46;48;161;134;115;99;104;101;109;101;132;110;111;110;101;0;0]);
   (false, [0;22;177;112;161;134;115;101;114;118;101;114;139;78;101;111;52;106;47;51;46;52;46;54;0;0]);
   (true, [0;44;178;16;208;39;67;82;69;65;84;69;32;40;102;58;78;79;68;69;32;123;97;58;32;49;125;41;44;32;40;98;58;78;79;68;69;32;123;97;58;32;50;125;41;160;0;0]);
   (true, [0;2;176;63;0;0]);
   (false, [0;36;177;112;162;208;22;114;101;115;117;108;116;95;97;118;97;105;108;97;98;108;101;95;97;102;116;101;114;85;134;102;105;101;108;100;115;144;0;0]);
   (false, [0;86;177;112;163;133;115;116;97;116;115;163;140;108;97;98;101;108;115;45;97;100;100;101;100;2;141;110;111;100;101;115;45;99;114;101;97;116;101;100;2;142;112;114;111;112;101;114;116;105;101;115;45;115;101;116;2;208;21;114;101;115;117;108;116;95;99;111;110;115;117;109;101;100;95;97;102;116;101;114;0;132;116;121;112;101;129;119;0;0]);
   (true, [0;43;178;16;208;38;77;65;84;67;72;32;40;110;58;78;79;68;69;41;32;82;69;84;85;82;78;32;110;46;97;32;79;82;68;69;82;32;66;89;32;110;46;97;160;0;0]);
   (true, [0;2;176;63;0;0]);
   (false, [0;40;177;112;162;208;22;114;101;115;117;108;116;95;97;118;97;105;108;97;98;108;101;95;97;102;116;101;114;110;134;102;105;101;108;100;115;145;131;110;46;97;0;0]);
   (false, [0;4;177;113;145;1;0;0]);
   (false, [0;4;177;113;145;2;0;0]);
   (false, [0;34;177;112;162;208;21;114;101;115;117;108;116;95;99;111;110;115;117;109;101;100;95;97;102;116;101;114;0;132;116;121;112;101;129;114;0;0]);
   (true, [0;28;178;16;208;23;77;65;84;67;72;32;40;110;58;78;79;68;69;41;32;68;69;76;69;84;69;32;110;160;0;0]);
   (true, [0;2;176;63;0;0]);
   (false, [0;36;177;112;162;208;22;114;101;115;117;108;116;95;97;118;97;105;108;97;98;108;101;95;97;102;116;101;114;17;134;102;105;101;108;100;115;144;0;0]);
   (false, [0;56;177;112;163;133;115;116;97;116;115;161;141;110;111;100;101;115;45;100;101;108;101;116;101;100;2;208;21;114;101;115;117;108;116;95;99;111;110;115;117;109;101;100;95;97;102;116;101;114;0;132;116;121;112;101;129;119;0;0])].

(** recordings/TestBoltConn_SelectOne.json *)
Definition rec_TestBoltConn_SelectOne : list (bool * bytes) :=
  [(true, [96;96;176;23;0;0;0;1;0;0;0;0;0;0;0;0;0;0;0;0]);
   (false, [0;0;0;1]);
   (true, [0;36;178;1;208;19;71;111;108;97;110;103;78;101;111;52;106;66;111;108;116;47;49;46;48;161;134;115;99;104;101;109;101;132;110;111;110;101;0;0]);
   (false, [0;22;177;112;161;134;115;101;114;118;101;114;139;78;101;111;52;106;47;51;46;52;46;54;0;0]);
   (true, [0;13;178;16;137;82;69;84;85;82;78;32;49;59;160;0;0]);
   (true, [0;2;176;63;0;0]);
   (false, [0;38;177;112;162;208;22;114;101;115;117;108;116;95;97;118;97;105;108;97;98;108;101;95;97;102;116;101;114;17;134;102;105;101;108;100;115;145;129;49;0;0]);
   (false, [0;4;177;113;145;1;0;0]);
   (false, [0;34;177;112;162;208;21;114;101;115;117;108;116;95;99;111;110;115;117;109;101;100;95;97;102;116;101;114;0;132;116;121;112;101;129;114;0;0])].

(** recordings/TestBoltStmt_CreateArgs.json *)
Definition rec_TestBoltStmt_CreateArgs : list (bool * bytes) :=
  [(true, [96;96;176;23;0;0;0;1;0;0;0;0;0;0;0;0;0;0;0;0]);
   (false, [0;0;0;1]);
   (true, [0;36;178;1;208;19;71;111;108;97;110;103;78;101;111;52;106;66;111;108;116;47;49;46;48;161;134;115;99;104;101;109;101;132;110;111;110;101;0;0]);
   (false, [0;22;177;112;161;134;115;101;114;118;101;114;139;78;101;111;52;106;47;51;46;52;46;54;0;0]);
   (true, [0;139;178;16;208;99;67;82;69;65;84;69;32;40;102;58;70;79;79;32;123;97;58;32;123;97;125;44;32;98;58;32;123;98;125;44;32;99;58;32;123;99;125;44;32;100;58;32;123;100;125;44;32;101;58;32;123;101;125;44;32;102;58;32;123;102;125;125;41;32;82;69;84;85;82;78;32;102;46;97;44;32;102;46;98;44;32;102;46;99;44;32;102;46;100;44;32;102;46;101;44;32;102;46;102;166;129;102;192;129;97;1;129;98;193;64;224;183;74;251;189;123;32;129;99;134;115;116;114;105;110;103;129;100;147;1;2;3;129;101;195;0;0]);
   (false, [0;60;177;112;162;208;22;114;101;115;117;108;116;95;97;118;97;105;108;97;98;108;101;95;97;102;116;101;114;22;134;102;105;101;108;100;115;150;131;102;46;97;131;102;46;98;131;102;46;99;131;102;46;100;131;102;46;101;131;102;46;102;0;0]);
   (true, [0;2;176;63;0;0]);
   (false, [0;26;177;113;150;1;193;64;224;183;74;251;189;123;32;134;115;116;114;105;110;103;147;1;2;3;195;192;0;0]);
   (false, [0;87;177;112;163;133;115;116;97;116;115;163;140;108;97;98;101;108;115;45;97;100;100;101;100;1;141;110;111;100;101;115;45;99;114;101;97;116;101;100;1;142;112;114;111;112;101;114;116;105;101;115;45;115;101;116;5;208;21;114;101;115;117;108;116;95;99;111;110;115;117;109;101;100;95;97;102;116;101;114;0;132;116;121;112;101;130;114;119;0;0]);
   (true, [0;27;178;16;208;22;77;65;84;67;72;32;40;102;58;70;79;79;41;32;68;69;76;69;84;69;32;102;160;0;0]);
   (true, [0;2;176;63;0;0]);
   (false, [0;36;177;112;162;208;22;114;101;115;117;108;116;95;97;118;97;105;108;97;98;108;101;95;97;102;116;101;114;10;134;102;105;101;108;100;115;144;0;0]);
   (false, [0;56;177;112;163;133;115;116;97;116;115;161;141;110;111;100;101;115;45;100;101;108;101;116;101;100;5;208;21;114;101;115;117;108;116;95;99;111;110;115;117;109;101;100;95;97;102;116;101;114;0;132;116;121;112;101;129;119;0;0])].

(** recordings/TestBoltStmt_Discard.json *)
Definition rec_TestBoltStmt_Discard : list (bool * bytes) :=
  [(true, [96;96;176;23;0;0;0;1;0;0;0;0;0;0;0;0;0;0;0;0]);
   (false, [0;0;0;1]);
   (true, [0;36;178;1;208;19;71;111;108;97;110;103;78;101;111;52;106;66;111;108;116;47;49;46;48;161;134;115;99;104;101;109;101;132;110;111;110;101;0;0]);
   (false, [0;22;177;112;161;134;115;101;114;118;101;114;139;78;101;111;52;106;47;51;46;52;46;54;0;0]);
   (true, [0;58;178;16;208;53;67;82;69;65;84;69;32;40;102;58;70;79;79;32;123;97;58;32;34;49;34;125;41;44;32;40;98;58;70;79;79;32;123;97;58;32;34;50;34;125;41;32;82;69;84;85;82;78;32;102;44;32;98;160;0;0]);
   (false, [0;40;177;112;162;208;22;114;101;115;117;108;116;95;97;118;97;105;108;97;98;108;101;95;97;102;116;101;114;17;134;102;105;101;108;100;115;146;129;102;129;98;0;0]);
   (true, [0;2;176;47;0;0]);
   (false, [0;87;177;112;163;133;115;116;97;116;115;163;140;108;97;98;101;108;115;45;97;100;100;101;100;2;141;110;111;100;101;115;45;99;114;101;97;116;101;100;2;142;112;114;111;112;101;114;116;105;101;115;45;115;101;116;2;208;21;114;101;115;117;108;116;95;99;111;110;115;117;109;101;100;95;97;102;116;101;114;0;132;116;121;112;101;130;114;119;0;0]);
   (true, [0;42;178;16;208;37;77;65;84;67;72;32;40;102;58;70;79;79;41;32;82;69;84;85;82;78;32;102;46;97;32;79;82;68;69;82;32;66;89;32;102;46;97;160;0;0]);
   (false, [0;40;177;112;162;208;22;114;101;115;117;108;116;95;97;118;97;105;108;97;98;108;101;95;97;102;116;101;114;25;134;102;105;101;108;100;115;145;131;102;46;97;0;0]);
   (true, [0;2;176;63;0;0]);
   (false, [0;5;177;113;145;129;49;0;0]);
   (false, [0;5;177;113;145;129;50;0;0]);
   (false, [0;34;177;112;162;208;21;114;101;115;117;108;116;95;99;111;110;115;117;109;101;100;95;97;102;116;101;114;0;132;116;121;112;101;129;114;0;0]);
   (true, [0;42;178;16;208;37;77;65;84;67;72;32;40;102;58;70;79;79;41;32;82;69;84;85;82;78;32;102;46;97;32;79;82;68;69;82;32;66;89;32;102;46;97;160;0;0]);
   (false, [0;40;177;112;162;208;22;114;101;115;117;108;116;95;97;118;97;105;108;97;98;108;101;95;97;102;116;101;114;2;134;102;105;101;108;100;115;145;131;102;46;97;0;0]);
   (true, [0;2;176;63;0;0]);
   (false, [0;5;177;113;145;129;49;0;0]);
   (false, [0;5;177;113;145;129;50;0;0]);
   (false, [0;34;177;112;162;208;21;114;101;115;117;108;116;95;99;111;110;115;117;109;101;100;95;97;102;116;101;114;1;132;116;121;112;101;129;114;0;0]);
   (true, [0;27;178;16;208;22;77;65;84;67;72;32;40;102;58;70;79;79;41;32;68;69;76;69;84;69;32;102;160;0;0]);
   (true, [0;2;176;63;0;0]);
   (false, [0;36;177;112;162;208;22;114;101;115;117;108;116;95;97;118;97;105;108;97;98;108;101;95;97;102;116;101;114;1;134;102;105;101;108;100;115;144;0;0]);
   (false, [0;56;177;112;163;133;115;116;97;116;115;161;141;110;111;100;101;115;45;100;101;108;101;116;101;100;2;208;21;114;101;115;117;108;116;95;99;111;110;115;117;109;101;100;95;97;102;116;101;114;0;132;116;121;112;101;129;119;0;0])].

(** recordings/TestBoltStmt_ExecNeo.json *)
Definition rec_TestBoltStmt_ExecNeo : list (bool * bytes) :=
  [(true, [96;96;176;23;0;0;0;1;0;0;0;0;0;0;0;0;0;0;0;0]);
   (false, [0;0;0;1]);
   (true, [0;36;178;1;208;19;71;111;108;97;110;103;78;101;111;52;106;66;111;108;116;47;49;46;48;161;134;115;99;104;101;109;101;132;110;111;110;101;0;0]);
   (false, [0;22;177;112;161;134;115;101;114;118;101;114;139;78;101;111;52;106;47;51;46;52;46;54;0;0]);
   (true, [0;139;178;16;208;96;67;82;69;65;84;69;32;40;102;58;70;79;79;32;123;97;58;32;123;97;125;44;32;98;58;32;123;98;125;44;32;99;58;32;123;99;125;44;32;100;58;32;123;100;125;44;32;101;58;32;123;101;125;44;32;102;58;32;123;102;125;44;32;103;58;32;123;103;125;44;32;104;58;32;123;104;125;125;41;45;91;98;58;66;65;82;93;45;62;40;99;58;66;65;90;41;168;129;98;1;129;99;195;129;101;147;1;2;3;129;102;193;64;11;51;51;51;51;51;51;129;103;255;129;104;194;129;100;192;129;97;131;102;111;111;0;0]);
   (true, [0;2;176;63;0;0]);
   (false, [0;36;177;112;162;208;22;114;101;115;117;108;116;95;97;118;97;105;108;97;98;108;101;95;97;102;116;101;114;44;134;102;105;101;108;100;115;144;0;0]);
   (false, [0;110;177;112;163;133;115;116;97;116;115;164;140;108;97;98;101;108;115;45;97;100;100;101;100;2;208;21;114;101;108;97;116;105;111;110;115;104;105;112;115;45;99;114;101;97;116;101;100;1;141;110;111;100;101;115;45;99;114;101;97;116;101;100;2;142;112;114;111;112;101;114;116;105;101;115;45;115;101;116;7;208;21;114;101;115;117;108;116;95;99;111;110;115;117;109;101;100;95;97;102;116;101;114;0;132;116;121;112;101;129;119;0;0]);
   (true, [0;35;178;16;208;30;77;65;84;67;72;32;40;102;58;70;79;79;41;32;83;69;84;32;102;46;97;32;61;32;34;98;97;114;34;59;160;0;0]);
   (true, [0;2;176;63;0;0]);
   (false, [0;36;177;112;162;208;22;114;101;115;117;108;116;95;97;118;97;105;108;97;98;108;101;95;97;102;116;101;114;43;134;102;105;101;108;100;115;144;0;0]);
   (false, [0;57;177;112;163;133;115;116;97;116;115;161;142;112;114;111;112;101;114;116;105;101;115;45;115;101;116;5;208;21;114;101;115;117;108;116;95;99;111;110;115;117;109;101;100;95;97;102;116;101;114;0;132;116;121;112;101;129;119;0;0]);
   (true, [0;50;178;16;208;45;77;65;84;67;72;32;40;102;58;70;79;79;41;45;91;98;58;66;65;82;93;45;62;40;99;58;66;65;90;41;32;68;69;76;69;84;69;32;102;44;32;98;44;32;99;160;0;0]);
   (true, [0;2;176;63;0;0]);
   (false, [0;36;177;112;162;208;22;114;101;115;117;108;116;95;97;118;97;105;108;97;98;108;101;95;97;102;116;101;114;20;134;102;105;101;108;100;115;144;0;0]);
   (false, [0;80;177;112;163;133;115;116;97;116;115;162;141;110;111;100;101;115;45;100;101;108;101;116;101;100;2;208;21;114;101;108;97;116;105;111;110;115;104;105;112;115;45;100;101;108;101;116;101;100;1;208;21;114;101;115;117;108;116;95;99;111;110;115;117;109;101;100;95;97;102;116;101;114;0;132;116;121;112;101;129;119;0;0])].

(** recordings/TestBoltStmt_Failure.json *)
Definition rec_TestBoltStmt_Failure : list (bool * bytes) :=
  [(true, [96;96;176;23;0;0;0;1;0;0;0;0;0;0;0;0;0;0;0;0]);
   (false, [0;0;0;1]);
   (true, [0;36;178;1;208;19;71;111;108;97;110;103;78;101;111;52;106;66;111;108;116;47;49;46;48;161;134;115;99;104;101;109;101;132;110;111;110;101;0;0]);
   (false, [0;22;177;112;161;134;115;101;114;118;101;114;139;78;101;111;52;106;47;51;46;52;46;54;0;0]);
   (true, [0;58;178;16;208;53;67;82;69;65;84;69;32;40;102;58;70;79;79;32;123;97;58;32;34;49;34;125;41;44;32;40;98;58;70;79;79;32;123;97;58;32;34;50;34;125;41;32;82;69;84;85;82;78;32;102;44;32;98;160;0;0]);
   (false, [0;40;177;112;162;208;22;114;101;115;117;108;116;95;97;118;97;105;108;97;98;108;101;95;97;102;116;101;114;2;134;102;105;101;108;100;115;146;129;102;129;98;0;0]);
   (true, [0;2;176;47;0;0]);
   (false, [0;87;177;112;163;133;115;116;97;116;115;163;140;108;97;98;101;108;115;45;97;100;100;101;100;2;141;110;111;100;101;115;45;99;114;101;97;116;101;100;2;142;112;114;111;112;101;114;116;105;101;115;45;115;101;116;2;208;21;114;101;115;117;108;116;95;99;111;110;115;117;109;101;100;95;97;102;116;101;114;0;132;116;121;112;101;130;114;119;0;0]);
   (true, [0;29;178;16;208;24;84;104;105;115;32;105;115;32;97;110;32;105;110;118;97;108;105;100;32;113;117;101;114;121;160;0;0]);
   (false, [0;152;177;127;162;132;99;111;100;101;208;37;78;101;111;46;67;108;105;101;110;116;69;114;114;111;114;46;83;116;97;116;101;109;101;110;116;46;83;121;110;116;97;120;69;114;114;111;114;135;109;101;115;115;97;103;101;208;95;73;110;118;97;108;105;100;32;105;110;112;117;116;32;39;84;39;58;32;101;120;112;101;99;116;101;100;32;60;105;110;105;116;62;32;40;108;105;110;101;32;49;44;32;99;111;108;117;109;110;32;49;32;40;111;102;102;115;101;116;58;32;48;41;41;10;34;84;104;105;115;32;105;115;32;97;110;32;105;110;118;97;108;105;100;32;113;117;101;114;121;34;10;32;94;0;0]);
   (true, [0;2;176;14;0;0]);
   (false, [0;3;177;112;160;0;0]);
   (true, [0;42;178;16;208;37;77;65;84;67;72;32;40;102;58;70;79;79;41;32;82;69;84;85;82;78;32;102;46;97;32;79;82;68;69;82;32;66;89;32;102;46;97;160;0;0]);
   (false, [0;40;177;112;162;208;22;114;101;115;117;108;116;95;97;118;97;105;108;97;98;108;101;95;97;102;116;101;114;3;134;102;105;101;108;100;115;145;131;102;46;97;0;0]);
   (true, [0;2;176;63;0;0]);
   (false, [0;5;177;113;145;129;49;0;0]);
   (false, [0;5;177;113;145;129;50;0;0]);
   (false, [0;34;177;112;162;208;21;114;101;115;117;108;116;95;99;111;110;115;117;109;101;100;95;97;102;116;101;114;1;132;116;121;112;101;129;114;0;0]);
   (true, [0;42;178;16;208;37;77;65;84;67;72;32;40;102;58;70;79;79;41;32;82;69;84;85;82;78;32;102;46;97;32;79;82;68;69;82;32;66;89;32;102;46;97;160;0;0]);
   (false, [0;40;177;112;162;208;22;114;101;115;117;108;116;95;97;118;97;105;108;97;98;108;101;95;97;102;116;101;114;1;134;102;105;101;108;100;115;145;131;102;46;97;0;0]);
   (true, [0;2;176;63;0;0]);
   (false, [0;5;177;113;145;129;49;0;0]);
   (false, [0;5;177;113;145;129;50;0;0]);
   (false, [0;34;177;112;162;208;21;114;101;115;117;108;116;95;99;111;110;115;117;109;101;100;95;97;102;116;101;114;0;132;116;121;112;101;129;114;0;0]);
   (true, [0;27;178;16;208;22;77;65;84;67;72;32;40;102;58;70;79;79;41;32;68;69;76;69;84;69;32;102;160;0;0]);
   (true, [0;2;176;63;0;0]);
   (false, [0;36;177;112;162;208;22;114;101;115;117;108;116;95;97;118;97;105;108;97;98;108;101;95;97;102;116;101;114;1;134;102;105;101;108;100;115;144;0;0]);
   (false, [0;56;177;112;163;133;115;116;97;116;115;161;141;110;111;100;101;115;45;100;101;108;101;116;101;100;2;208;21;114;101;115;117;108;116;95;99;111;110;115;117;109;101;100;95;97;102;116;101;114;0;132;116;121;112;101;129;119;0;0])].

(** recordings/TestBoltStmt_InvalidArgs.json *)
Definition rec_TestBoltStmt_InvalidArgs : list (bool * bytes) :=
  [(true, [96;96;176;23;0;0;0;1;0;0;0;0;0;0;0;0;0;0;0;0]);
   (false, [0;0;0;1]);
   (true, [0;36;178;1;208;19;71;111;108;97;110;103;78;101;111;52;106;66;111;108;116;47;49;46;48;161;134;115;99;104;101;109;101;132;110;111;110;101;0;0]);
   (false, [0;22;177;112;161;134;115;101;114;118;101;114;139;78;101;111;52;106;47;51;46;52;46;54;0;0]);
   (true, [0;115;178;16;208;72;67;82;69;65;84;69;32;40;102;58;70;79;79;32;123;97;58;32;123;97;125;44;32;98;58;32;123;98;125;44;32;99;58;32;123;99;125;44;32;100;58;32;123;100;125;44;32;101;58;32;123;101;125;44;32;102;58;32;123;102;125;125;41;32;82;69;84;85;82;78;32;102;166;129;102;192;129;97;1;129;98;193;64;224;183;74;251;189;123;32;129;99;134;115;116;114;105;110;103;129;100;149;1;129;50;3;195;192;129;101;195;0;0]);
   (false, [0;223;177;127;162;132;99;111;100;101;208;35;78;101;111;46;67;108;105;101;110;116;69;114;114;111;114;46;83;116;97;116;101;109;101;110;116;46;84;121;112;101;69;114;114;111;114;135;109;101;115;115;97;103;101;209;0;167;78;101;111;52;106;32;111;110;108;121;32;115;117;112;112;111;114;116;115;32;97;32;115;117;98;115;101;116;32;111;102;32;67;121;112;104;101;114;32;116;121;112;101;115;32;102;111;114;32;115;116;111;114;97;103;101;32;97;115;32;115;105;110;103;108;101;116;111;110;32;111;114;32;97;114;114;97;121;32;112;114;111;112;101;114;116;105;101;115;46;32;80;108;101;97;115;101;32;114;101;102;101;114;32;116;111;32;115;101;99;116;105;111;110;32;99;121;112;104;101;114;47;115;121;110;116;97;120;47;118;97;108;117;101;115;32;111;102;32;116;104;101;32;109;97;110;117;97;108;32;102;111;114;32;109;111;114;101;32;100;101;116;97;105;108;115;46;0;0]);
   (true, [0;2;176;14;0;0]);
   (false, [0;3;177;112;160;0;0])].

(** recordings/TestBoltStmt_ManyChunks.json *)
Definition rec_TestBoltStmt_ManyChunks : list (bool * bytes) :=
  [(true, [96;96;176;23;0;0;0;1;0;0;0;0;0;0;0;0;0;0;0;0]);
   (false, [0;0;0;1]);
   (true, [0;36;178;1;208;19;71;111;108;97;110;103;78;101;111;52;106;66;111;108;116;47;49;46;48;161;134;115;99;104;101;109;101;132;110;111;110;101;0;0]);
   (false, [0;22;177;112;161;134;115;101;114;118;101;114;139;78;101;111;52;106;47;51;46;52;46;54;0;0]);
   (true, [0;10;178;16;208;93;82;69;84;85;82;78;0;10;32;34;49;32;50;32;51;32;52;32;0;78;53;32;54;32;55;32;56;32;57;32;49;48;34;32;97;115;32;97;44;32;32;34;49;32;50;32;51;32;52;32;53;32;54;32;55;32;56;32;57;32;49;48;34;32;97;115;32;98;44;32;34;49;32;50;32;51;32;52;32;53;32;54;32;55;32;56;32;57;32;49;48;34;32;97;115;32;99;160;0;0]);
   (false, [0;42;177;112;162;208;22;114;101;115;117;108;116;95;97;118;97;105;108;97;98;108;101;95;97;102;116;101;114;9;134;102;105;101;108;100;115;147;129;97;129;98;129;99;0;0]);
   (true, [0;2;176;63;0;0]);
   (false, [0;69;177;113;147;208;20;49;32;50;32;51;32;52;32;53;32;54;32;55;32;56;32;57;32;49;48;208;20;49;32;50;32;51;32;52;32;53;32;54;32;55;32;56;32;57;32;49;48;208;20;49;32;50;32;51;32;52;32;53;32;54;32;55;32;56;32;57;32;49;48;0;0]);
   (false, [0;34;177;112;162;208;21;114;101;115;117;108;116;95;99;111;110;115;117;109;101;100;95;97;102;116;101;114;0;132;116;121;112;101;129;114;0;0])].

(** recordings/TestBoltStmt_MixedObjects.json *)
Definition rec_TestBoltStmt_MixedObjects : list (bool * bytes) :=
  [(true, [96;96;176;23;0;0;0;1;0;0;0;0;0;0;0;0;0;0;0;0]);
   (false, [0;0;0;1]);
   (true, [0;36;178;1;208;19;71;111;108;97;110;103;78;101;111;52;106;66;111;108;116;47;49;46;48;161;134;115;99;104;101;109;101;132;110;111;110;101;0;0]);
   (false, [0;22;177;112;161;134;115;101;114;118;101;114;139;78;101;111;52;106;47;51;46;52;46;54;0;0]);
   (true, [0;83;178;16;208;78;67;82;69;65;84;69;32;40;102;58;70;79;79;32;123;97;58;32;34;49;34;125;41;45;91;98;58;84;79;93;45;62;40;99;58;66;65;82;41;60;45;91;100;58;70;82;79;77;93;45;40;101;58;66;65;90;41;32;82;69;84;85;82;78;32;102;44;32;98;44;32;99;44;32;100;44;32;101;160;0;0]);
   (false, [0;46;177;112;162;208;22;114;101;115;117;108;116;95;97;118;97;105;108;97;98;108;101;95;97;102;116;101;114;22;134;102;105;101;108;100;115;149;129;102;129;98;129;99;129;100;129;101;0;0]);
   (true, [0;2;176;63;0;0]);
   (false, [0;68;177;113;149;179;78;201;0;182;145;131;70;79;79;161;129;97;129;49;181;82;201;0;173;201;0;182;201;0;132;130;84;79;160;179;78;201;0;132;145;131;66;65;82;160;181;82;201;0;197;35;201;0;132;132;70;82;79;77;160;179;78;35;145;131;66;65;90;160;0;0]);
   (false, [0;111;177;112;163;133;115;116;97;116;115;164;140;108;97;98;101;108;115;45;97;100;100;101;100;3;208;21;114;101;108;97;116;105;111;110;115;104;105;112;115;45;99;114;101;97;116;101;100;2;141;110;111;100;101;115;45;99;114;101;97;116;101;100;3;142;112;114;111;112;101;114;116;105;101;115;45;115;101;116;1;208;21;114;101;115;117;108;116;95;99;111;110;115;117;109;101;100;95;97;102;116;101;114;1;132;116;121;112;101;130;114;119;0;0]);
   (true, [0;73;178;16;208;68;77;65;84;67;72;32;40;102;58;70;79;79;41;45;91;98;58;84;79;93;45;62;40;99;58;66;65;82;41;60;45;91;100;58;70;82;79;77;93;45;40;101;58;66;65;90;41;32;68;69;76;69;84;69;32;102;44;32;98;44;32;99;44;32;100;44;32;101;160;0;0]);
   (true, [0;2;176;63;0;0]);
   (false, [0;36;177;112;162;208;22;114;101;115;117;108;116;95;97;118;97;105;108;97;98;108;101;95;97;102;116;101;114;88;134;102;105;101;108;100;115;144;0;0]);
   (false, [0;80;177;112;163;133;115;116;97;116;115;162;141;110;111;100;101;115;45;100;101;108;101;116;101;100;3;208;21;114;101;108;97;116;105;111;110;115;104;105;112;115;45;100;101;108;101;116;101;100;2;208;21;114;101;115;117;108;116;95;99;111;110;115;117;109;101;100;95;97;102;116;101;114;0;132;116;121;112;101;129;119;0;0])].

(** recordings/TestBoltStmt_Path.json *)
Definition rec_TestBoltStmt_Path : list (bool * bytes) :=
  [(true, [96;96;176;23;0;0;0;1;0;0;0;0;0;0;0;0;0;0;0;0]);
   (false, [0;0;0;1]);
   (true, [0;36;178;1;208;19;71;111;108;97;110;103;78;101;111;52;106;66;111;108;116;47;49;46;48;161;134;115;99;104;101;109;101;132;110;111;110;101;0;0]);
   (false, [0;22;177;112;161;134;115;101;114;118;101;114;139;78;101;111;52;106;47;51;46;52;46;54;0;0]);
   (true, [0;79;178;16;208;74;67;82;69;65;84;69;32;112;97;116;104;61;40;102;58;70;79;79;32;123;97;58;32;34;49;34;125;41;45;91;98;58;84;79;93;45;62;40;99;58;66;65;82;41;60;45;91;100;58;70;82;79;77;93;45;40;101;58;66;65;90;41;32;82;69;84;85;82;78;32;112;97;116;104;160;0;0]);
   (false, [0;41;177;112;162;208;22;114;101;115;117;108;116;95;97;118;97;105;108;97;98;108;101;95;97;102;116;101;114;28;134;102;105;101;108;100;115;145;132;112;97;116;104;0;0]);
   (true, [0;2;176;63;0;0]);
   (false, [0;61;177;113;145;179;80;147;179;78;36;145;131;70;79;79;161;129;97;129;49;179;78;19;145;131;66;65;82;160;179;78;28;145;131;66;65;90;160;146;179;114;53;130;84;79;160;179;114;201;0;219;132;70;82;79;77;160;148;1;1;254;2;0;0]);
   (false, [0;111;177;112;163;133;115;116;97;116;115;164;140;108;97;98;101;108;115;45;97;100;100;101;100;3;208;21;114;101;108;97;116;105;111;110;115;104;105;112;115;45;99;114;101;97;116;101;100;2;141;110;111;100;101;115;45;99;114;101;97;116;101;100;3;142;112;114;111;112;101;114;116;105;101;115;45;115;101;116;1;208;21;114;101;115;117;108;116;95;99;111;110;115;117;109;101;100;95;97;102;116;101;114;0;132;116;121;112;101;130;114;119;0;0]);
   (true, [0;73;178;16;208;68;77;65;84;67;72;32;40;102;58;70;79;79;41;45;91;98;58;84;79;93;45;62;40;99;58;66;65;82;41;60;45;91;100;58;70;82;79;77;93;45;40;101;58;66;65;90;41;32;68;69;76;69;84;69;32;102;44;32;98;44;32;99;44;32;100;44;32;101;160;0;0]);
   (true, [0;2;176;63;0;0]);
   (false, [0;36;177;112;162;208;22;114;101;115;117;108;116;95;97;118;97;105;108;97;98;108;101;95;97;102;116;101;114;3;134;102;105;101;108;100;115;144;0;0]);
   (false, [0;80;177;112;163;133;115;116;97;116;115;162;141;110;111;100;101;115;45;100;101;108;101;116;101;100;3;208;21;114;101;108;97;116;105;111;110;115;104;105;112;115;45;100;101;108;101;116;101;100;2;208;21;114;101;115;117;108;116;95;99;111;110;115;117;109;101;100;95;97;102;116;101;114;0;132;116;121;112;101;129;119;0;0])].

(** recordings/TestBoltStmt_PipelineExec.json *)
Definition rec_TestBoltStmt_PipelineExec : list (bool * bytes) :=
  [(true, [96;96;176;23;0;0;0;1;0;0;0;0;0;0;0;0;0;0;0;0]);
   (false, [0;0;0;1]);
   (true, [0;36;178;1;208;19;71;111;108;97;110;103;78;101;111;52;106;66;111;108;116;47;49;46;48;161;134;115;99;104;101;109;101;132;110;111;110;101;0;0]);
   (false, [0;22;177;112;161;134;115;101;114;118;101;114;139;78;101;111;52;106;47;51;46;52;46;54;0;0]);
   (true, [0;45;178;16;208;31;67;82;69;65;84;69;32;40;102;58;70;79;79;32;123;97;58;32;123;97;125;44;32;98;58;32;123;98;125;125;41;162;129;97;1;129;98;131;116;119;111;0;0]);
   (true, [0;2;176;63;0;0]);
   (true, [0;47;178;16;208;31;67;82;69;65;84;69;32;40;98;58;66;65;82;32;123;97;58;32;123;97;125;44;32;98;58;32;123;98;125;125;41;162;129;97;2;129;98;133;116;104;114;101;101;0;0]);
   (true, [0;2;176;63;0;0]);
   (true, [0;46;178;16;208;31;67;82;69;65;84;69;32;40;99;58;66;65;90;32;123;97;58;32;123;97;125;44;32;98;58;32;123;98;125;125;41;162;129;97;3;129;98;132;102;111;117;114;0;0]);
   (true, [0;2;176;63;0;0]);
   (false, [0;36;177;112;162;208;22;114;101;115;117;108;116;95;97;118;97;105;108;97;98;108;101;95;97;102;116;101;114;11;134;102;105;101;108;100;115;144;0;0]);
   (false, [0;86;177;112;163;133;115;116;97;116;115;163;140;108;97;98;101;108;115;45;97;100;100;101;100;1;141;110;111;100;101;115;45;99;114;101;97;116;101;100;1;142;112;114;111;112;101;114;116;105;101;115;45;115;101;116;2;208;21;114;101;115;117;108;116;95;99;111;110;115;117;109;101;100;95;97;102;116;101;114;0;132;116;121;112;101;129;119;0;0]);
   (false, [0;36;177;112;162;208;22;114;101;115;117;108;116;95;97;118;97;105;108;97;98;108;101;95;97;102;116;101;114;11;134;102;105;101;108;100;115;144;0;0]);
   (false, [0;86;177;112;163;133;115;116;97;116;115;163;140;108;97;98;101;108;115;45;97;100;100;101;100;1;141;110;111;100;101;115;45;99;114;101;97;116;101;100;1;142;112;114;111;112;101;114;116;105;101;115;45;115;101;116;2;208;21;114;101;115;117;108;116;95;99;111;110;115;117;109;101;100;95;97;102;116;101;114;0;132;116;121;112;101;129;119;0;0]);
   (false, [0;36;177;112;162;208;22;114;101;115;117;108;116;95;97;118;97;105;108;97;98;108;101;95;97;102;116;101;114;8;134;102;105;101;108;100;115;144;0;0]);
   (false, [0;86;177;112;163;133;115;116;97;116;115;163;140;108;97;98;101;108;115;45;97;100;100;101;100;1;141;110;111;100;101;115;45;99;114;101;97;116;101;100;1;142;112;114;111;112;101;114;116;105;101;115;45;115;101;116;2;208;21;114;101;115;117;108;116;95;99;111;110;115;117;109;101;100;95;97;102;116;101;114;0;132;116;121;112;101;129;119;0;0]);
   (true, [0;52;178;16;208;47;77;65;84;67;72;32;40;102;58;70;79;79;41;44;32;40;98;58;66;65;82;41;44;32;40;99;58;66;65;90;41;32;114;101;116;117;114;110;32;102;44;32;98;44;32;99;59;160;0;0]);
   (false, [0;42;177;112;162;208;22;114;101;115;117;108;116;95;97;118;97;105;108;97;98;108;101;95;97;102;116;101;114;94;134;102;105;101;108;100;115;147;129;102;129;98;129;99;0;0]);
   (true, [0;2;176;63;0;0]);
   (false, [0;60;177;113;147;179;78;19;145;131;70;79;79;162;129;97;1;129;98;131;116;119;111;179;78;28;145;131;66;65;82;162;129;97;2;129;98;133;116;104;114;101;101;179;78;36;145;131;66;65;90;162;129;97;3;129;98;132;102;111;117;114;0;0]);
   (false, [0;34;177;112;162;208;21;114;101;115;117;108;116;95;99;111;110;115;117;109;101;100;95;97;102;116;101;114;3;132;116;121;112;101;129;114;0;0]);
   (true, [0;51;178;16;208;46;77;65;84;67;72;32;40;102;58;70;79;79;41;44;32;40;98;58;66;65;82;41;44;32;40;99;58;66;65;90;41;32;68;69;76;69;84;69;32;102;44;32;98;44;32;99;160;0;0]);
   (true, [0;2;176;63;0;0]);
   (false, [0;36;177;112;162;208;22;114;101;115;117;108;116;95;97;118;97;105;108;97;98;108;101;95;97;102;116;101;114;33;134;102;105;101;108;100;115;144;0;0]);
   (false, [0;56;177;112;163;133;115;116;97;116;115;161;141;110;111;100;101;115;45;100;101;108;101;116;101;100;3;208;21;114;101;115;117;108;116;95;99;111;110;115;117;109;101;100;95;97;102;116;101;114;0;132;116;121;112;101;129;119;0;0])].

(** recordings/TestBoltStmt_PipelineQuery.json *)
Definition rec_TestBoltStmt_PipelineQuery : list (bool * bytes) :=
  [(true, [96;96;176;23;0;0;0;1;0;0;0;0;0;0;0;0;0;0;0;0]);
   (false, [0;0;0;1]);
   (true, [0;36;178;1;208;19;71;111;108;97;110;103;78;101;111;52;106;66;111;108;116;47;49;46;48;161;134;115;99;104;101;109;101;132;110;111;110;101;0;0]);
   (false, [0;22;177;112;161;134;115;101;114;118;101;114;139;78;101;111;52;106;47;51;46;52;46;54;0;0]);
   (true, [0;54;178;16;208;40;67;82;69;65;84;69;32;40;102;58;70;79;79;32;123;97;58;32;123;97;125;44;32;98;58;32;123;98;125;125;41;32;82;69;84;85;82;78;32;102;162;129;97;1;129;98;131;116;119;111;0;0]);
   (true, [0;2;176;63;0;0]);
   (true, [0;56;178;16;208;40;67;82;69;65;84;69;32;40;98;58;66;65;82;32;123;97;58;32;123;97;125;44;32;98;58;32;123;98;125;125;41;32;82;69;84;85;82;78;32;98;162;129;97;2;129;98;133;116;104;114;101;101;0;0]);
   (true, [0;2;176;63;0;0]);
   (true, [0;55;178;16;208;40;67;82;69;65;84;69;32;40;99;58;66;65;90;32;123;97;58;32;123;97;125;44;32;98;58;32;123;98;125;125;41;32;82;69;84;85;82;78;32;99;162;129;98;132;102;111;117;114;129;97;3;0;0]);
   (true, [0;2;176;63;0;0]);
   (false, [0;38;177;112;162;208;22;114;101;115;117;108;116;95;97;118;97;105;108;97;98;108;101;95;97;102;116;101;114;15;134;102;105;101;108;100;115;145;129;102;0;0]);
   (false, [0;21;177;113;145;179;78;90;145;131;70;79;79;162;129;97;1;129;98;131;116;119;111;0;0]);
   (false, [0;87;177;112;163;133;115;116;97;116;115;163;140;108;97;98;101;108;115;45;97;100;100;101;100;1;141;110;111;100;101;115;45;99;114;101;97;116;101;100;1;142;112;114;111;112;101;114;116;105;101;115;45;115;101;116;2;208;21;114;101;115;117;108;116;95;99;111;110;115;117;109;101;100;95;97;102;116;101;114;0;132;116;121;112;101;130;114;119;0;0]);
   (false, [0;38;177;112;162;208;22;114;101;115;117;108;116;95;97;118;97;105;108;97;98;108;101;95;97;102;116;101;114;12;134;102;105;101;108;100;115;145;129;98;0;0]);
   (false, [0;23;177;113;145;179;78;95;145;131;66;65;82;162;129;97;2;129;98;133;116;104;114;101;101;0;0]);
   (false, [0;87;177;112;163;133;115;116;97;116;115;163;140;108;97;98;101;108;115;45;97;100;100;101;100;1;141;110;111;100;101;115;45;99;114;101;97;116;101;100;1;142;112;114;111;112;101;114;116;105;101;115;45;115;101;116;2;208;21;114;101;115;117;108;116;95;99;111;110;115;117;109;101;100;95;97;102;116;101;114;1;132;116;121;112;101;130;114;119;0;0]);
   (false, [0;38;177;112;162;208;22;114;101;115;117;108;116;95;97;118;97;105;108;97;98;108;101;95;97;102;116;101;114;12;134;102;105;101;108;100;115;145;129;99;0;0]);
   (false, [0;22;177;113;145;179;78;67;145;131;66;65;90;162;129;97;3;129;98;132;102;111;117;114;0;0]);
   (false, [0;87;177;112;163;133;115;116;97;116;115;163;140;108;97;98;101;108;115;45;97;100;100;101;100;1;141;110;111;100;101;115;45;99;114;101;97;116;101;100;1;142;112;114;111;112;101;114;116;105;101;115;45;115;101;116;2;208;21;114;101;115;117;108;116;95;99;111;110;115;117;109;101;100;95;97;102;116;101;114;0;132;116;121;112;101;130;114;119;0;0]);
   (true, [0;51;178;16;208;46;77;65;84;67;72;32;40;102;58;70;79;79;41;44;32;40;98;58;66;65;82;41;44;32;40;99;58;66;65;90;41;32;68;69;76;69;84;69;32;102;44;32;98;44;32;99;160;0;0]);
   (true, [0;2;176;63;0;0]);
   (false, [0;36;177;112;162;208;22;114;101;115;117;108;116;95;97;118;97;105;108;97;98;108;101;95;97;102;116;101;114;2;134;102;105;101;108;100;115;144;0;0]);
   (false, [0;56;177;112;163;133;115;116;97;116;115;161;141;110;111;100;101;115;45;100;101;108;101;116;101;100;3;208;21;114;101;115;117;108;116;95;99;111;110;115;117;109;101;100;95;97;102;116;101;114;0;132;116;121;112;101;129;119;0;0])].

(** recordings/TestBoltStmt_PipelineQueryCloseBeginning.json *)
Definition rec_TestBoltStmt_PipelineQueryCloseBeginning : list (bool * bytes) :=
  [(true, [96;96;176;23;0;0;0;1;0;0;0;0;0;0;0;0;0;0;0;0]);
   (false, [0;0;0;1]);
   (true, [0;36;178;1;208;19;71;111;108;97;110;103;78;101;111;52;106;66;111;108;116;47;49;46;48;161;134;115;99;104;101;109;101;132;110;111;110;101;0;0]);
   (false, [0;22;177;112;161;134;115;101;114;118;101;114;139;78;101;111;52;106;47;51;46;52;46;54;0;0]);
   (true, [0;54;178;16;208;40;67;82;69;65;84;69;32;40;102;58;70;79;79;32;123;97;58;32;123;97;125;44;32;98;58;32;123;98;125;125;41;32;82;69;84;85;82;78;32;102;162;129;98;131;116;119;111;129;97;1;0;0]);
   (true, [0;2;176;63;0;0]);
   (true, [0;56;178;16;208;40;67;82;69;65;84;69;32;40;98;58;66;65;82;32;123;97;58;32;123;97;125;44;32;98;58;32;123;98;125;125;41;32;82;69;84;85;82;78;32;98;162;129;97;2;129;98;133;116;104;114;101;101;0;0]);
   (true, [0;2;176;63;0;0]);
   (true, [0;55;178;16;208;40;67;82;69;65;84;69;32;40;99;58;66;65;90;32;123;97;58;32;123;97;125;44;32;98;58;32;123;98;125;125;41;32;82;69;84;85;82;78;32;99;162;129;97;3;129;98;132;102;111;117;114;0;0]);
   (true, [0;2;176;63;0;0]);
   (false, [0;38;177;112;162;208;22;114;101;115;117;108;116;95;97;118;97;105;108;97;98;108;101;95;97;102;116;101;114;1;134;102;105;101;108;100;115;145;129;102;0;0]);
   (false, [0;23;177;113;145;179;78;201;0;186;145;131;70;79;79;162;129;97;1;129;98;131;116;119;111;0;0]);
   (false, [0;87;177;112;163;133;115;116;97;116;115;163;140;108;97;98;101;108;115;45;97;100;100;101;100;1;141;110;111;100;101;115;45;99;114;101;97;116;101;100;1;142;112;114;111;112;101;114;116;105;101;115;45;115;101;116;2;208;21;114;101;115;117;108;116;95;99;111;110;115;117;109;101;100;95;97;102;116;101;114;1;132;116;121;112;101;130;114;119;0;0]);
   (false, [0;38;177;112;162;208;22;114;101;115;117;108;116;95;97;118;97;105;108;97;98;108;101;95;97;102;116;101;114;1;134;102;105;101;108;100;115;145;129;98;0;0]);
   (false, [0;25;177;113;145;179;78;201;0;191;145;131;66;65;82;162;129;97;2;129;98;133;116;104;114;101;101;0;0]);
   (false, [0;87;177;112;163;133;115;116;97;116;115;163;140;108;97;98;101;108;115;45;97;100;100;101;100;1;141;110;111;100;101;115;45;99;114;101;97;116;101;100;1;142;112;114;111;112;101;114;116;105;101;115;45;115;101;116;2;208;21;114;101;115;117;108;116;95;99;111;110;115;117;109;101;100;95;97;102;116;101;114;0;132;116;121;112;101;130;114;119;0;0]);
   (false, [0;38;177;112;162;208;22;114;101;115;117;108;116;95;97;118;97;105;108;97;98;108;101;95;97;102;116;101;114;2;134;102;105;101;108;100;115;145;129;99;0;0]);
   (false, [0;22;177;113;145;179;78;108;145;131;66;65;90;162;129;97;3;129;98;132;102;111;117;114;0;0]);
   (false, [0;87;177;112;163;133;115;116;97;116;115;163;140;108;97;98;101;108;115;45;97;100;100;101;100;1;141;110;111;100;101;115;45;99;114;101;97;116;101;100;1;142;112;114;111;112;101;114;116;105;101;115;45;115;101;116;2;208;21;114;101;115;117;108;116;95;99;111;110;115;117;109;101;100;95;97;102;116;101;114;0;132;116;121;112;101;130;114;119;0;0]);
   (true, [0;51;178;16;208;46;77;65;84;67;72;32;40;102;58;70;79;79;41;44;32;40;98;58;66;65;82;41;44;32;40;99;58;66;65;90;41;32;68;69;76;69;84;69;32;102;44;32;98;44;32;99;160;0;0]);
   (true, [0;2;176;63;0;0]);
   (false, [0;36;177;112;162;208;22;114;101;115;117;108;116;95;97;118;97;105;108;97;98;108;101;95;97;102;116;101;114;2;134;102;105;101;108;100;115;144;0;0]);
   (false, [0;56;177;112;163;133;115;116;97;116;115;161;141;110;111;100;101;115;45;100;101;108;101;116;101;100;3;208;21;114;101;115;117;108;116;95;99;111;110;115;117;109;101;100;95;97;102;116;101;114;0;132;116;121;112;101;129;119;0;0])].

(** recordings/TestBoltStmt_PipelineQueryCloseMiddle.json *)
Definition rec_TestBoltStmt_PipelineQueryCloseMiddle : list (bool * bytes) :=
  [(true, [96;96;176;23;0;0;0;1;0;0;0;0;0;0;0;0;0;0;0;0]);
   (false, [0;0;0;1]);
   (true, [0;36;178;1;208;19;71;111;108;97;110;103;78;101;111;52;106;66;111;108;116;47;49;46;48;161;134;115;99;104;101;109;101;132;110;111;110;101;0;0]);
   (false, [0;22;177;112;161;134;115;101;114;118;101;114;139;78;101;111;52;106;47;51;46;52;46;54;0;0]);
   (true, [0;54;178;16;208;40;67;82;69;65;84;69;32;40;102;58;70;79;79;32;123;97;58;32;123;97;125;44;32;98;58;32;123;98;125;125;41;32;82;69;84;85;82;78;32;102;162;129;98;131;116;119;111;129;97;1;0;0]);
   (true, [0;2;176;63;0;0]);
   (true, [0;56;178;16;208;40;67;82;69;65;84;69;32;40;98;58;66;65;82;32;123;97;58;32;123;97;125;44;32;98;58;32;123;98;125;125;41;32;82;69;84;85;82;78;32;98;162;129;97;2;129;98;133;116;104;114;101;101;0;0]);
   (true, [0;2;176;63;0;0]);
   (true, [0;55;178;16;208;40;67;82;69;65;84;69;32;40;99;58;66;65;90;32;123;97;58;32;123;97;125;44;32;98;58;32;123;98;125;125;41;32;82;69;84;85;82;78;32;99;162;129;97;3;129;98;132;102;111;117;114;0;0]);
   (true, [0;2;176;63;0;0]);
   (false, [0;38;177;112;162;208;22;114;101;115;117;108;116;95;97;118;97;105;108;97;98;108;101;95;97;102;116;101;114;2;134;102;105;101;108;100;115;145;129;102;0;0]);
   (false, [0;21;177;113;145;179;78;78;145;131;70;79;79;162;129;97;1;129;98;131;116;119;111;0;0]);
   (false, [0;87;177;112;163;133;115;116;97;116;115;163;140;108;97;98;101;108;115;45;97;100;100;101;100;1;141;110;111;100;101;115;45;99;114;101;97;116;101;100;1;142;112;114;111;112;101;114;116;105;101;115;45;115;101;116;2;208;21;114;101;115;117;108;116;95;99;111;110;115;117;109;101;100;95;97;102;116;101;114;0;132;116;121;112;101;130;114;119;0;0]);
   (false, [0;38;177;112;162;208;22;114;101;115;117;108;116;95;97;118;97;105;108;97;98;108;101;95;97;102;116;101;114;1;134;102;105;101;108;100;115;145;129;98;0;0]);
   (false, [0;25;177;113;145;179;78;201;0;162;145;131;66;65;82;162;129;97;2;129;98;133;116;104;114;101;101;0;0]);
   (false, [0;87;177;112;163;133;115;116;97;116;115;163;140;108;97;98;101;108;115;45;97;100;100;101;100;1;141;110;111;100;101;115;45;99;114;101;97;116;101;100;1;142;112;114;111;112;101;114;116;105;101;115;45;115;101;116;2;208;21;114;101;115;117;108;116;95;99;111;110;115;117;109;101;100;95;97;102;116;101;114;0;132;116;121;112;101;130;114;119;0;0]);
   (false, [0;38;177;112;162;208;22;114;101;115;117;108;116;95;97;118;97;105;108;97;98;108;101;95;97;102;116;101;114;1;134;102;105;101;108;100;115;145;129;99;0;0]);
   (false, [0;24;177;113;145;179;78;201;0;163;145;131;66;65;90;162;129;97;3;129;98;132;102;111;117;114;0;0]);
   (false, [0;87;177;112;163;133;115;116;97;116;115;163;140;108;97;98;101;108;115;45;97;100;100;101;100;1;141;110;111;100;101;115;45;99;114;101;97;116;101;100;1;142;112;114;111;112;101;114;116;105;101;115;45;115;101;116;2;208;21;114;101;115;117;108;116;95;99;111;110;115;117;109;101;100;95;97;102;116;101;114;0;132;116;121;112;101;130;114;119;0;0]);
   (true, [0;51;178;16;208;46;77;65;84;67;72;32;40;102;58;70;79;79;41;44;32;40;98;58;66;65;82;41;44;32;40;99;58;66;65;90;41;32;68;69;76;69;84;69;32;102;44;32;98;44;32;99;160;0;0]);
   (true, [0;2;176;63;0;0]);
   (false, [0;36;177;112;162;208;22;114;101;115;117;108;116;95;97;118;97;105;108;97;98;108;101;95;97;102;116;101;114;2;134;102;105;101;108;100;115;144;0;0]);
   (false, [0;56;177;112;163;133;115;116;97;116;115;161;141;110;111;100;101;115;45;100;101;108;101;116;101;100;3;208;21;114;101;115;117;108;116;95;99;111;110;115;117;109;101;100;95;97;102;116;101;114;0;132;116;121;112;101;129;119;0;0])].

(** recordings/TestBoltStmt_SelectIntLimits.json *)
Definition rec_TestBoltStmt_SelectIntLimits : list (bool * bytes) :=
  [(true, [96;96;176;23;0;0;0;1;0;0;0;0;0;0;0;0;0;0;0;0]);
   (false, [0;0;0;1]);
   (true, [0;36;178;1;208;19;71;111;108;97;110;103;78;101;111;52;106;66;111;108;116;47;49;46;48;161;134;115;99;104;101;109;101;132;110;111;110;101;0;0]);
   (false, [0;22;177;112;161;134;115;101;114;118;101;114;139;78;101;111;52;106;47;51;46;52;46;54;0;0]);
   (true, [0;238;178;16;208;150;82;69;84;85;82;78;32;123;109;105;110;54;52;125;32;97;115;32;109;105;110;54;52;44;32;123;109;105;110;51;50;125;32;97;115;32;109;105;110;51;50;44;32;123;109;105;110;49;54;125;32;97;115;32;109;105;110;49;54;44;32;123;109;105;110;56;125;32;97;115;32;109;105;110;56;44;32;45;49;54;44;32;123;109;97;120;56;125;32;97;115;32;109;97;120;56;44;32;123;109;97;120;49;54;125;32;97;115;32;109;97;120;49;54;44;32;123;109;97;120;51;50;125;32;97;115;32;109;97;120;51;50;44;32;123;109;97;120;54;52;125;32;97;115;32;109;97;120;54;52;168;133;109;105;110;54;52;203;128;0;0;0;0;0;0;0;133;109;105;110;51;50;202;128;0;0;0;133;109;105;110;49;54;201;128;0;132;109;105;110;56;200;128;132;109;97;120;56;127;133;109;97;120;49;54;201;127;255;133;109;97;120;51;50;202;127;255;255;255;133;109;97;120;54;52;203;127;255;255;255;255;255;255;255;0;0]);
   (false, [0;86;177;112;162;208;22;114;101;115;117;108;116;95;97;118;97;105;108;97;98;108;101;95;97;102;116;101;114;16;134;102;105;101;108;100;115;153;133;109;105;110;54;52;133;109;105;110;51;50;133;109;105;110;49;54;132;109;105;110;56;131;45;49;54;132;109;97;120;56;133;109;97;120;49;54;133;109;97;120;51;50;133;109;97;120;54;52;0;0]);
   (true, [0;2;176;63;0;0]);
   (false, [0;41;177;113;153;203;128;0;0;0;0;0;0;0;202;128;0;0;0;201;128;0;200;128;240;127;201;127;255;202;127;255;255;255;203;127;255;255;255;255;255;255;255;0;0]);
   (false, [0;34;177;112;162;208;21;114;101;115;117;108;116;95;99;111;110;115;117;109;101;100;95;97;102;116;101;114;0;132;116;121;112;101;129;114;0;0])].

(** recordings/TestBoltStmt_SelectMany.json *)
Definition rec_TestBoltStmt_SelectMany : list (bool * bytes) :=
  [(true, [96;96;176;23;0;0;0;1;0;0;0;0;0;0;0;0;0;0;0;0]);
   (false, [0;0;0;1]);
   (true, [0;36;178;1;208;19;71;111;108;97;110;103;78;101;111;52;106;66;111;108;116;47;49;46;48;161;134;115;99;104;101;109;101;132;110;111;110;101;0;0]);
   (false, [0;22;177;112;161;134;115;101;114;118;101;114;139;78;101;111;52;106;47;51;46;52;46;54;0;0]);
   (true, [0;74;178;16;208;69;82;69;84;85;82;78;32;49;44;32;51;52;50;51;52;46;51;52;51;50;51;44;32;34;115;116;114;105;110;103;34;44;32;91;49;44;32;34;50;34;44;32;51;44;32;116;114;117;101;44;32;110;117;108;108;93;44;32;116;114;117;101;44;32;110;117;108;108;59;160;0;0]);
   (false, [0;94;177;112;162;208;22;114;101;115;117;108;116;95;97;118;97;105;108;97;98;108;101;95;97;102;116;101;114;39;134;102;105;101;108;100;115;150;129;49;139;51;52;50;51;52;46;51;52;51;50;51;136;34;115;116;114;105;110;103;34;208;23;91;49;44;32;34;50;34;44;32;51;44;32;116;114;117;101;44;32;110;117;108;108;93;132;116;114;117;101;132;110;117;108;108;0;0]);
   (true, [0;2;176;63;0;0]);
   (false, [0;29;177;113;150;1;193;64;224;183;74;251;189;123;32;134;115;116;114;105;110;103;149;1;129;50;3;195;192;195;192;0;0]);
   (false, [0;34;177;112;162;208;21;114;101;115;117;108;116;95;99;111;110;115;117;109;101;100;95;97;102;116;101;114;2;132;116;121;112;101;129;114;0;0])].

(** recordings/TestBoltStmt_SelectOne.json *)
Definition rec_TestBoltStmt_SelectOne : list (bool * bytes) :=
  [(true, [96;96;176;23;0;0;0;1;0;0;0;0;0;0;0;0;0;0;0;0]);
   (false, [0;0;0;1]);
   (true, [0;36;178;1;208;19;71;111;108;97;110;103;78;101;111;52;106;66;111;108;116;47;49;46;48;161;134;115;99;104;101;109;101;132;110;111;110;101;0;0]);
   (false, [0;22;177;112;161;134;115;101;114;118;101;114;139;78;101;111;52;106;47;51;46;52;46;54;0;0]);
   (true, [0;13;178;16;137;82;69;84;85;82;78;32;49;59;160;0;0]);
   (false, [0;38;177;112;162;208;22;114;101;115;117;108;116;95;97;118;97;105;108;97;98;108;101;95;97;102;116;101;114;3;134;102;105;101;108;100;115;145;129;49;0;0]);
   (true, [0;2;176;63;0;0]);
   (false, [0;4;177;113;145;1;0;0]);
   (false, [0;34;177;112;162;208;21;114;101;115;117;108;116;95;99;111;110;115;117;109;101;100;95;97;102;116;101;114;0;132;116;121;112;101;129;114;0;0])].

(** recordings/TestBoltStmt_SelectStringLimits.json *)
Definition rec_TestBoltStmt_SelectStringLimits : list (bool * bytes) :=
  [(true, [96;96;176;23;0;0;0;1;0;0;0;0;0;0;0;0;0;0;0;0]);
   (false, [0;0;0;1]);
   (true, [0;36;178;1;208;19;71;111;108;97;110;103;78;101;111;52;106;66;111;108;116;47;49;46;48;161;134;115;99;104;101;109;101;132;110;111;110;101;0;0]);
   (false, [0;22;177;112;161;134;115;101;114;118;101;114;139;78;101;111;52;106;47;51;46;52;46;54;0;0]);
   (true, [255;255;178;16;208;45;82;69;84;85;82;78;32;123;97;125;32;97;115;32;97;44;32;123;98;125;32;97;115;32;98;44;32;123;99;125;32;97;115;32;99;44;32;123;100;125;32;97;115;32;100;164;129;97;143;45;45;45;45;45;45;45;45;45;45;45;45;45;45;45;129;98;208;16;45;45;45;45;45;45;45;45;45;45;45;45;45;45;45;45;129;99;209;1;0] ++ times 256 [45] ++ [129;100;210;0;1;0;0] ++ times 65179 [45] ++ [1;101] ++ times 357 [45] ++ [0;0]);
   (false, [0;44;177;112;162;208;22;114;101;115;117;108;116;95;97;118;97;105;108;97;98;108;101;95;97;102;116;101;114;13;134;102;105;101;108;100;115;148;129;97;129;98;129;99;129;100;0;0]);
   (true, [0;2;176;63;0;0]);
   (false, [63;253;177;113;148;143;45;45;45;45;45;45;45;45;45;45;45;45;45;45;45;208;16;45;45;45;45;45;45;45;45;45;45;45;45;45;45;45;45;209;1;0] ++ times 256 [45] ++ [210;0;1;0;0] ++ times 16080 [45] ++ [63;253] ++ times 16381 [45] ++ [63;253] ++ times 16381 [45] ++ [63;253] ++ times 16381 [45] ++ [1;57] ++ times 313 [45] ++ [0;0]);
   (false, [0;34;177;112;162;208;21;114;101;115;117;108;116;95;99;111;110;115;117;109;101;100;95;97;102;116;101;114;2;132;116;121;112;101;129;114;0;0])].

(** recordings/TestBoltStmt_SingleNode.json *)
Definition rec_TestBoltStmt_SingleNode : list (bool * bytes) :=
  [(true, [96;96;176;23;0;0;0;1;0;0;0;0;0;0;0;0;0;0;0;0]);
   (false, [0;0;0;1]);
   (true, [0;36;178;1;208;19;71;111;108;97;110;103;78;101;111;52;106;66;111;108;116;47;49;46;48;161;134;115;99;104;101;109;101;132;110;111;110;101;0;0]);
   (false, [0;22;177;112;161;134;115;101;114;118;101;114;139;78;101;111;52;106;47;51;46;52;46;54;0;0]);
   (true, [0;131;178;16;208;88;67;82;69;65;84;69;32;40;102;58;70;79;79;32;123;97;58;32;123;97;125;44;32;98;58;32;123;98;125;44;32;99;58;32;123;99;125;44;32;100;58;32;123;100;125;44;32;101;58;32;123;101;125;44;32;102;58;32;123;102;125;44;32;103;58;32;123;103;125;44;32;104;58;32;123;104;125;125;41;32;114;101;116;117;114;110;32;102;168;129;104;194;129;100;192;129;97;131;102;111;111;129;98;1;129;99;195;129;101;147;1;2;3;129;102;193;64;11;51;51;51;51;51;51;129;103;255;0;0]);
   (false, [0;38;177;112;162;208;22;114;101;115;117;108;116;95;97;118;97;105;108;97;98;108;101;95;97;102;116;101;114;15;134;102;105;101;108;100;115;145;129;102;0;0]);
   (true, [0;2;176;63;0;0]);
   (false, [0;47;177;113;145;179;78;67;145;131;70;79;79;167;129;97;131;102;111;111;129;98;1;129;99;195;129;101;147;1;2;3;129;102;193;64;11;51;51;51;51;51;51;129;103;255;129;104;194;0;0]);
   (false, [0;87;177;112;163;133;115;116;97;116;115;163;140;108;97;98;101;108;115;45;97;100;100;101;100;1;141;110;111;100;101;115;45;99;114;101;97;116;101;100;1;142;112;114;111;112;101;114;116;105;101;115;45;115;101;116;7;208;21;114;101;115;117;108;116;95;99;111;110;115;117;109;101;100;95;97;102;116;101;114;1;132;116;121;112;101;130;114;119;0;0]);
   (true, [0;27;178;16;208;22;77;65;84;67;72;32;40;102;58;70;79;79;41;32;68;69;76;69;84;69;32;102;160;0;0]);
   (true, [0;2;176;63;0;0]);
   (false, [0;36;177;112;162;208;22;114;101;115;117;108;116;95;97;118;97;105;108;97;98;108;101;95;97;102;116;101;114;1;134;102;105;101;108;100;115;144;0;0]);
   (false, [0;56;177;112;163;133;115;116;97;116;115;161;141;110;111;100;101;115;45;100;101;108;101;116;101;100;1;208;21;114;101;115;117;108;116;95;99;111;110;115;117;109;101;100;95;97;102;116;101;114;0;132;116;121;112;101;129;119;0;0])].

(** recordings/TestBoltStmt_SingleRel.json *)
Definition rec_TestBoltStmt_SingleRel : list (bool * bytes) :=
  [(true, [96;96;176;23;0;0;0;1;0;0;0;0;0;0;0;0;0;0;0;0]);
   (false, [0;0;0;1]);
   (true, [0;36;178;1;208;19;71;111;108;97;110;103;78;101;111;52;106;66;111;108;116;47;49;46;48;161;134;115;99;104;101;109;101;132;110;111;110;101;0;0]);
   (false, [0;22;177;112;161;134;115;101;114;118;101;114;139;78;101;111;52;106;47;51;46;52;46;54;0;0]);
   (true, [0;160;178;16;208;105;67;82;69;65;84;69;32;40;102;58;70;79;79;41;45;91;98;58;66;65;82;32;123;97;58;32;123;97;125;44;32;98;58;32;123;98;125;44;32;99;58;32;123;99;125;44;32;100;58;32;123;100;125;44;32;101;58;32;123;101;125;44;32;102;58;32;123;102;125;44;32;103;58;32;123;103;125;44;32;104;58;32;123;104;125;125;93;45;62;40;99;58;66;65;90;41;32;114;101;116;117;114;110;32;98;168;129;103;202;127;255;255;255;129;104;194;129;100;192;129;97;131;102;111;111;129;98;203;127;255;255;255;255;255;255;255;129;99;195;129;101;147;1;2;3;129;102;193;64;11;51;51;51;51;51;51;0;0]);
   (false, [0;38;177;112;162;208;22;114;101;115;117;108;116;95;97;118;97;105;108;97;98;108;101;95;97;102;116;101;114;17;134;102;105;101;108;100;115;145;129;98;0;0]);
   (true, [0;2;176;63;0;0]);
   (false, [0;60;177;113;145;181;82;86;90;95;131;66;65;82;167;129;97;131;102;111;111;129;98;203;127;255;255;255;255;255;255;255;129;99;195;129;101;147;1;2;3;129;102;193;64;11;51;51;51;51;51;51;129;103;202;127;255;255;255;129;104;194;0;0]);
   (false, [0;111;177;112;163;133;115;116;97;116;115;164;140;108;97;98;101;108;115;45;97;100;100;101;100;2;208;21;114;101;108;97;116;105;111;110;115;104;105;112;115;45;99;114;101;97;116;101;100;1;141;110;111;100;101;115;45;99;114;101;97;116;101;100;2;142;112;114;111;112;101;114;116;105;101;115;45;115;101;116;7;208;21;114;101;115;117;108;116;95;99;111;110;115;117;109;101;100;95;97;102;116;101;114;1;132;116;121;112;101;130;114;119;0;0]);
   (true, [0;50;178;16;208;45;77;65;84;67;72;32;40;102;58;70;79;79;41;45;91;98;58;66;65;82;93;45;62;40;99;58;66;65;90;41;32;68;69;76;69;84;69;32;102;44;32;98;44;32;99;160;0;0]);
   (true, [0;2;176;63;0;0]);
   (false, [0;36;177;112;162;208;22;114;101;115;117;108;116;95;97;118;97;105;108;97;98;108;101;95;97;102;116;101;114;2;134;102;105;101;108;100;115;144;0;0]);
   (false, [0;80;177;112;163;133;115;116;97;116;115;162;141;110;111;100;101;115;45;100;101;108;101;116;101;100;2;208;21;114;101;108;97;116;105;111;110;115;104;105;112;115;45;100;101;108;101;116;101;100;1;208;21;114;101;115;117;108;116;95;99;111;110;115;117;109;101;100;95;97;102;116;101;114;0;132;116;121;112;101;129;119;0;0])].

(** recordings/TestBoltTx_Commit.json *)
Definition rec_TestBoltTx_Commit : list (bool * bytes) :=
  [(true, [96;96;176;23;0;0;0;1;0;0;0;0;0;0;0;0;0;0;0;0]);
   (false, [0;0;0;1]);
   (true, [0;36;178;1;208;19;71;111;108;97;110;103;78;101;111;52;106;66;111;108;116;47;49;46;48;161;134;115;99;104;101;109;101;132;110;111;110;101;0;0]);
   (false, [0;22;177;112;161;134;115;101;114;118;101;114;139;78;101;111;52;106;47;51;46;52;46;54;0;0]);
   (true, [0;9;178;16;133;66;69;71;73;78;160;0;0]);
   (true, [0;2;176;63;0;0]);
   (false, [0;36;177;112;162;208;22;114;101;115;117;108;116;95;97;118;97;105;108;97;98;108;101;95;97;102;116;101;114;2;134;102;105;101;108;100;115;144;0;0]);
   (false, [0;3;177;112;160;0;0]);
   (true, [0;83;178;16;208;78;67;82;69;65;84;69;32;40;102;58;70;79;79;32;123;97;58;32;34;49;34;125;41;45;91;98;58;84;79;93;45;62;40;99;58;66;65;82;41;60;45;91;100;58;70;82;79;77;93;45;40;101;58;66;65;90;41;32;82;69;84;85;82;78;32;102;44;32;98;44;32;99;44;32;100;44;32;101;160;0;0]);
   (true, [0;2;176;63;0;0]);
   (false, [0;46;177;112;162;208;22;114;101;115;117;108;116;95;97;118;97;105;108;97;98;108;101;95;97;102;116;101;114;2;134;102;105;101;108;100;115;149;129;102;129;98;129;99;129;100;129;101;0;0]);
   (false, [0;66;177;113;149;179;78;201;0;154;145;131;70;79;79;161;129;97;129;49;181;82;56;201;0;154;201;0;184;130;84;79;160;179;78;201;0;184;145;131;66;65;82;160;181;82;201;0;173;33;201;0;184;132;70;82;79;77;160;179;78;33;145;131;66;65;90;160;0;0]);
   (false, [0;111;177;112;163;133;115;116;97;116;115;164;140;108;97;98;101;108;115;45;97;100;100;101;100;3;208;21;114;101;108;97;116;105;111;110;115;104;105;112;115;45;99;114;101;97;116;101;100;2;141;110;111;100;101;115;45;99;114;101;97;116;101;100;3;142;112;114;111;112;101;114;116;105;101;115;45;115;101;116;1;208;21;114;101;115;117;108;116;95;99;111;110;115;117;109;101;100;95;97;102;116;101;114;0;132;116;121;112;101;130;114;119;0;0]);
   (true, [0;10;178;16;134;67;79;77;77;73;84;160;0;0]);
   (true, [0;2;176;63;0;0]);
   (false, [0;36;177;112;162;208;22;114;101;115;117;108;116;95;97;118;97;105;108;97;98;108;101;95;97;102;116;101;114;12;134;102;105;101;108;100;115;144;0;0]);
   (false, [0;38;177;112;161;136;98;111;111;107;109;97;114;107;208;24;110;101;111;52;106;58;98;111;111;107;109;97;114;107;58;118;49;58;116;120;50;53;56;55;0;0]);
   (true, [0;82;178;16;208;77;77;65;84;67;72;32;40;102;58;70;79;79;32;123;97;58;32;34;49;34;125;41;45;91;98;58;84;79;93;45;62;40;99;58;66;65;82;41;60;45;91;100;58;70;82;79;77;93;45;40;101;58;66;65;90;41;32;82;69;84;85;82;78;32;102;44;32;98;44;32;99;44;32;100;44;32;101;160;0;0]);
   (false, [0;46;177;112;162;208;22;114;101;115;117;108;116;95;97;118;97;105;108;97;98;108;101;95;97;102;116;101;114;83;134;102;105;101;108;100;115;149;129;102;129;98;129;99;129;100;129;101;0;0]);
   (true, [0;2;176;63;0;0]);
   (false, [0;66;177;113;149;179;78;201;0;154;145;131;70;79;79;161;129;97;129;49;181;82;56;201;0;154;201;0;184;130;84;79;160;179;78;201;0;184;145;131;66;65;82;160;181;82;201;0;173;33;201;0;184;132;70;82;79;77;160;179;78;33;145;131;66;65;90;160;0;0]);
   (false, [0;34;177;112;162;208;21;114;101;115;117;108;116;95;99;111;110;115;117;109;101;100;95;97;102;116;101;114;1;132;116;121;112;101;129;114;0;0]);
   (true, [0;73;178;16;208;68;77;65;84;67;72;32;40;102;58;70;79;79;41;45;91;98;58;84;79;93;45;62;40;99;58;66;65;82;41;60;45;91;100;58;70;82;79;77;93;45;40;101;58;66;65;90;41;32;68;69;76;69;84;69;32;102;44;32;98;44;32;99;44;32;100;44;32;101;160;0;0]);
   (true, [0;2;176;63;0;0]);
   (false, [0;36;177;112;162;208;22;114;101;115;117;108;116;95;97;118;97;105;108;97;98;108;101;95;97;102;116;101;114;1;134;102;105;101;108;100;115;144;0;0]);
   (false, [0;80;177;112;163;133;115;116;97;116;115;162;141;110;111;100;101;115;45;100;101;108;101;116;101;100;3;208;21;114;101;108;97;116;105;111;110;115;104;105;112;115;45;100;101;108;101;116;101;100;2;208;21;114;101;115;117;108;116;95;99;111;110;115;117;109;101;100;95;97;102;116;101;114;0;132;116;121;112;101;129;119;0;0])].

(** recordings/TestBoltTx_Rollback.json *)
Definition rec_TestBoltTx_Rollback : list (bool * bytes) :=
  [(true, [96;96;176;23;0;0;0;1;0;0;0;0;0;0;0;0;0;0;0;0]);
   (false, [0;0;0;1]);
   (true, [0;36;178;1;208;19;71;111;108;97;110;103;78;101;111;52;106;66;111;108;116;47;49;46;48;161;134;115;99;104;101;109;101;132;110;111;110;101;0;0]);
   (false, [0;22;177;112;161;134;115;101;114;118;101;114;139;78;101;111;52;106;47;51;46;52;46;54;0;0]);
   (true, [0;9;178;16;133;66;69;71;73;78;160;0;0]);
   (true, [0;2;176;63;0;0]);
   (false, [0;36;177;112;162;208;22;114;101;115;117;108;116;95;97;118;97;105;108;97;98;108;101;95;97;102;116;101;114;0;134;102;105;101;108;100;115;144;0;0]);
   (false, [0;3;177;112;160;0;0]);
   (true, [0;83;178;16;208;78;67;82;69;65;84;69;32;40;102;58;70;79;79;32;123;97;58;32;34;49;34;125;41;45;91;98;58;84;79;93;45;62;40;99;58;66;65;82;41;60;45;91;100;58;70;82;79;77;93;45;40;101;58;66;65;90;41;32;82;69;84;85;82;78;32;102;44;32;98;44;32;99;44;32;100;44;32;101;160;0;0]);
   (true, [0;2;176;63;0;0]);
   (false, [0;46;177;112;162;208;22;114;101;115;117;108;116;95;97;118;97;105;108;97;98;108;101;95;97;102;116;101;114;1;134;102;105;101;108;100;115;149;129;102;129;98;129;99;129;100;129;101;0;0]);
   (false, [0;56;177;113;149;179;78;20;145;131;70;79;79;161;129;97;129;49;181;82;201;0;197;20;86;130;84;79;160;179;78;86;145;131;66;65;82;160;181;82;53;59;86;132;70;82;79;77;160;179;78;59;145;131;66;65;90;160;0;0]);
   (false, [0;111;177;112;163;133;115;116;97;116;115;164;140;108;97;98;101;108;115;45;97;100;100;101;100;3;208;21;114;101;108;97;116;105;111;110;115;104;105;112;115;45;99;114;101;97;116;101;100;2;141;110;111;100;101;115;45;99;114;101;97;116;101;100;3;142;112;114;111;112;101;114;116;105;101;115;45;115;101;116;1;208;21;114;101;115;117;108;116;95;99;111;110;115;117;109;101;100;95;97;102;116;101;114;0;132;116;121;112;101;130;114;119;0;0]);
   (true, [0;12;178;16;136;82;79;76;76;66;65;67;75;160;0;0]);
   (true, [0;2;176;63;0;0]);
   (false, [0;36;177;112;162;208;22;114;101;115;117;108;116;95;97;118;97;105;108;97;98;108;101;95;97;102;116;101;114;0;134;102;105;101;108;100;115;144;0;0]);
   (false, [0;3;177;112;160;0;0]);
   (true, [0;82;178;16;208;77;77;65;84;67;72;32;40;102;58;70;79;79;32;123;97;58;32;34;49;34;125;41;45;91;98;58;84;79;93;45;62;40;99;58;66;65;82;41;60;45;91;100;58;70;82;79;77;93;45;40;101;58;66;65;90;41;32;82;69;84;85;82;78;32;102;44;32;98;44;32;99;44;32;100;44;32;101;160;0;0]);
   (false, [0;46;177;112;162;208;22;114;101;115;117;108;116;95;97;118;97;105;108;97;98;108;101;95;97;102;116;101;114;1;134;102;105;101;108;100;115;149;129;102;129;98;129;99;129;100;129;101;0;0]);
   (true, [0;2;176;63;0;0]);
   (false, [0;34;177;112;162;208;21;114;101;115;117;108;116;95;99;111;110;115;117;109;101;100;95;97;102;116;101;114;0;132;116;121;112;101;129;114;0;0])].
