(** Conformance of the model with recorded executions of the real driver.

    The driver's tests were recorded against a Neo4j 3.4.6 server (Recordings.v).  Here
    each recorded test is run in the byte level model (Session.v over SessionNet.v) on a
    transport that gives the recorded answers and, stricter than recorder.go, refuses any
    Write whose bytes are not the recorded ones.  A session conforms if every byte of the
    recording is used, so the model writes exactly what the driver wrote, and the results of
    the calls are what the test asserts.

    Go map iteration order is random; the parameters are listed in the order recorded. *)
From Coq Require Import ZArith List Bool String Ascii.
From Verif Require Import GoPrims Value Encoder Decoder Errors Misc Session SessionNet Recordings.
Import ListNotations.
Open Scope Z_scope.

Definition str_of (s : string) : str := map (fun a => Z.of_N (N_of_ascii a)) (list_ascii_of_string s).
Coercion str_of : string >-> str.

(** ** The transport *)
Definition tape := list (bool * bytes).
Fixpoint wind (t : tape) : tape := match t with (_, []) :: t' => wind t' | _ => t end.
Fixpoint drop_prefix (b l : bytes) : option bytes :=
  match b, l with
  | [], _ => Some l
  | x :: b', y :: l' => if x =? y then drop_prefix b' l' else None
  | _ :: _, [] => None
  end.
Fixpoint reads (t : tape) : list bytes * tape :=
  match t with
  | (false, l) :: t' => let '(ls, rest) := reads t' in (l :: ls, rest)
  | _ => ([], t)
  end.
Definition tape_io : transport tape :=
  {| t_put := fun t b =>
       match wind t with
       | (true, l) :: t' =>
           match drop_prefix b l with
           | Some l' => ((true, l') :: t', {| wc_n := zlen b; wc_err := false |})
           | None => (t, {| wc_n := 0; wc_err := true |})
           end
       | _ => (t, {| wc_n := 0; wc_err := true |})
       end;
     t_in := fun t => map RData (fst (reads (wind t)));
     t_left := fun t r => map (fun x => match x with RData l => (false, l) | RFail => (false, []) end) r ++ snd (reads (wind t));
     t_close := fun t => (t, false) |}.

(** ** What a test looks at *)
Inductive seen :=
| Done | Failed (code : option goval) | Handle (h : nat) | Affected (l : list rares)
| Row (r : list goval) | End (ty : option goval) | NextQuery (h : nat) | NoMore | Rows (l : list (list goval))
| Cols (l : list str) | Odd.
Definition failure (e : gerr) : seen :=
  match innermost e with EFailMsg m => Failed (mget (str_of "code") m) | _ => Failed None end.
Definition see (o : out) : seen :=
  match o with
  | OErr None | OUnit => Done
  | OHandle (Some h) None => Handle h
  | OResult (Some m) None => Affected [rows_affected m]
  | OResults (Some ms) None => Affected (map rows_affected ms)
  | ONext (Some r) None None => Row r
  | ONext None (Some m) (Some EEOF) => End (mget (str_of "type") m)
  | OPipe (Some r) None None None => Row r
  | OPipe None (Some m) (Some h) None => NextQuery h
  | OPipe None None None None => NoMore
  | OQueryAll (Some l) (Some _) (Some _) None => Rows l
  | OMeta m => Cols (columns m)
  | OErr (Some e) | OHandle None (Some e) | OResult None (Some e) | OResults None (Some e) => failure e
  | _ => Odd
  end.
Definition fuel : nat := 50.
Definition net := bytenet tape_io true.
(** OpenNeo without user, then the calls; [None] unless the whole tape was used. *)
Definition session (t : tape) (os : list op) : option (list seen) :=
  match initialize net fuel (close net fuel) [] [] (fresh false t) with
  | (Ok None, w) =>
      match run net true fuel os w with
      | (l, Ok tt, w') => match wind (w_net w') with [] => Some (map see l) | _ => None end
      | _ => None
      end
  | _ => None
  end.

Definition i (z : Z) : goval := VInt KInt64 z.
Definition s (x : string) : goval := VStr (str_of x).
Notation "x :> v" := (str_of x, v) (at level 60).
Definition syntax : option goval := Some (s "Neo.ClientError.Statement.SyntaxError").
Open Scope string_scope.
Open Scope Z_scope.

(** ** conn_test.go *)
Definition ops_TestBoltConn_Close : list op :=
  [CClose].
Example TestBoltConn_Close : session rec_TestBoltConn_Close ops_TestBoltConn_Close = Some [Done].
Proof. vm_compute. reflexivity. Qed.
Definition ops_TestBoltConn_SelectOne : list op :=
  [CQuery "RETURN 1;" []; RMeta 0; RNext 0; RNext 0; CClose].
Example TestBoltConn_SelectOne : session rec_TestBoltConn_SelectOne ops_TestBoltConn_SelectOne =
  Some [Handle 0; Cols [str_of "1"]; Row [i 1]; End (Some (s "r")); Done].
Proof. vm_compute. reflexivity. Qed.
Definition ops_TestBoltConn_SelectAll : list op :=
  [CExec "CREATE (f:NODE {a: 1}), (b:NODE {a: 2})" []; CQueryAll "MATCH (n:NODE) RETURN n.a ORDER BY n.a" [];
    CExec "MATCH (n:NODE) DELETE n" []; CClose].
Example TestBoltConn_SelectAll : session rec_TestBoltConn_SelectAll ops_TestBoltConn_SelectAll =
  Some [Affected [RAOk 2]; Rows [[i 1]; [i 2]]; Affected [RAOk 2]; Done].
Proof. vm_compute. reflexivity. Qed.
Definition ops_TestBoltConn_Ignored : list op :=
  [CExec "syntax error" ["bar" :> VF64 0x400199999999999A; "foo" :> vint 1]; CQueryAll "RETURN 1;" []; CClose].
Example TestBoltConn_Ignored : session rec_TestBoltConn_Ignored ops_TestBoltConn_Ignored =
  Some [Failed syntax; Rows [[i 1]]; Done].
Proof. vm_compute. reflexivity. Qed.
Definition ops_TestBoltConn_IgnoredPipeline : list op :=
  [CExecPipeline [str_of "syntax error"; str_of "syntax error"; str_of "syntax error"] [[]]; CQueryAll "RETURN 1;" []; CClose].
Example TestBoltConn_IgnoredPipeline : session rec_TestBoltConn_IgnoredPipeline ops_TestBoltConn_IgnoredPipeline =
  Some [Failed None; Rows [[i 1]]; Done].
Proof. vm_compute. reflexivity. Qed.
Definition bad := str_of "THIS IS A BAD QUERY AND SHOULD RETURN A FAILURE MESSAGE".
Definition ops_TestBoltConn_FailureMessageError : list op :=
  [CExec bad []; CClose].
Example TestBoltConn_FailureMessageError : session rec_TestBoltConn_FailureMessageError ops_TestBoltConn_FailureMessageError = Some [Failed syntax; Done].
Proof. vm_compute. reflexivity. Qed.
Definition ops_TestBoltConn_CloseStatementOnError : list op :=
  [CQuery bad []; CQuery "RETURN 1;" []; CClose].
Example TestBoltConn_CloseStatementOnError : session rec_TestBoltConn_CloseStatementOnError ops_TestBoltConn_CloseStatementOnError = Some [Failed syntax; Handle 0; Done].
Proof. vm_compute. reflexivity. Qed.

(** ** stmt_test.go *)
Definition ops_TestBoltStmt_SelectOne : list op :=
  [CPrepare "RETURN 1;"; SQuery 0 []; RMeta 0; RNext 0; RNext 0; CClose].
Example TestBoltStmt_SelectOne : session rec_TestBoltStmt_SelectOne ops_TestBoltStmt_SelectOne =
  Some [Handle 0; Handle 0; Cols [str_of "1"]; Row [i 1]; End (Some (s "r")); Done].
Proof. vm_compute. reflexivity. Qed.
Definition f34234 := VF64 0x40E0B74AFBBD7B20.         (* 34234.34323 *)
Definition f34 := VF64 0x400B333333333333.            (* 3.4 *)
Definition nums := [i 1; i 2; i 3].
Definition ops_TestBoltStmt_SelectMany : list op :=
  [CPrepare "RETURN 1, 34234.34323, ""string"", [1, ""2"", 3, true, null], true, null;"; SQuery 0 []; RMeta 0; RNext 0; RNext 0; CClose].
Example TestBoltStmt_SelectMany : session rec_TestBoltStmt_SelectMany ops_TestBoltStmt_SelectMany =
  Some [Handle 0; Handle 0;
        Cols [str_of "1"; str_of "34234.34323"; str_of """string"""; str_of "[1, ""2"", 3, true, null]"; str_of "true"; str_of "null"];
        Row [i 1; f34234; s "string"; VSlice [i 1; s "2"; i 3; VBool true; VNil]; VBool true; VNil]; End (Some (s "r")); Done].
Proof. vm_compute. reflexivity. Qed.
Definition ops_TestBoltStmt_InvalidArgs : list op :=
  [CPrepare "CREATE (f:FOO {a: {a}, b: {b}, c: {c}, d: {d}, e: {e}, f: {f}}) RETURN f";
    SQuery 0 ["f" :> VNil; "a" :> vint 1; "b" :> f34234; "c" :> s "string"; "d" :> VSlice [i 1; s "2"; i 3; VBool true; VNil]; "e" :> VBool true];
    CClose].
Example TestBoltStmt_InvalidArgs : session rec_TestBoltStmt_InvalidArgs ops_TestBoltStmt_InvalidArgs =
  Some [Handle 0; Failed (Some (s "Neo.ClientError.Statement.TypeError")); Done].
Proof. vm_compute. reflexivity. Qed.
Definition ops_TestBoltStmt_ExecNeo : list op :=
  [CPrepare "CREATE (f:FOO {a: {a}, b: {b}, c: {c}, d: {d}, e: {e}, f: {f}, g: {g}, h: {h}})-[b:BAR]->(c:BAZ)";
    SExec 0 ["b" :> vint 1; "c" :> VBool true; "e" :> VSlice [vint 1; vint 2; vint 3]; "f" :> f34; "g" :> vint (-1); "h" :> VBool false; "d" :> VNil; "a" :> s "foo"];
    SClose 0; CPrepare "MATCH (f:FOO) SET f.a = ""bar"";"; SExec 1 []; SClose 1;
    CPrepare "MATCH (f:FOO)-[b:BAR]->(c:BAZ) DELETE f, b, c"; SExec 2 []; CClose].
Example TestBoltStmt_ExecNeo : session rec_TestBoltStmt_ExecNeo ops_TestBoltStmt_ExecNeo =
  Some [Handle 0; Affected [RAOk 3]; Done; Handle 1; Affected [RAOk 0]; Done; Handle 2; Affected [RAOk 3]; Done].
Proof. vm_compute. reflexivity. Qed.
Definition ops_TestBoltStmt_CreateArgs : list op :=
  [CPrepare "CREATE (f:FOO {a: {a}, b: {b}, c: {c}, d: {d}, e: {e}, f: {f}}) RETURN f.a, f.b, f.c, f.d, f.e, f.f";
    SQuery 0 ["f" :> VNil; "a" :> vint 1; "b" :> f34234; "c" :> s "string"; "d" :> VSlice [vint 1; vint 2; vint 3]; "e" :> VBool true];
    RNext 0; SClose 0; CPrepare "MATCH (f:FOO) DELETE f"; SExec 1 []; CClose].
Example TestBoltStmt_CreateArgs : session rec_TestBoltStmt_CreateArgs ops_TestBoltStmt_CreateArgs =
  Some [Handle 0; Handle 0; Row [i 1; f34234; s "string"; VSlice nums; VBool true; VNil]; Done; Handle 1; Affected [RAOk 5]; Done].
Proof. vm_compute. reflexivity. Qed.
Definition by_a := str_of "MATCH (f:FOO) RETURN f.a ORDER BY f.a".
Definition ops_TestBoltStmt_Discard : list op :=
  [CPrepare "CREATE (f:FOO {a: ""1""}), (b:FOO {a: ""2""}) RETURN f, b"; SQuery 0 []; SClose 0;
    CPrepare by_a; SQuery 1 []; RNext 1; SClose 1;
    CPrepare by_a; SQuery 2 []; RNext 2; RNext 2; SClose 2;
    CPrepare "MATCH (f:FOO) DELETE f"; SExec 3 []; CClose].
Example TestBoltStmt_Discard : session rec_TestBoltStmt_Discard ops_TestBoltStmt_Discard =
  Some [Handle 0; Handle 0; Done; Handle 1; Handle 1; Row [s "1"]; Done; Handle 2; Handle 2; Row [s "1"]; Row [s "2"]; Done;
        Handle 3; Affected [RAOk 2]; Done].
Proof. vm_compute. reflexivity. Qed.
Definition ops_TestBoltStmt_Failure : list op :=
  [CPrepare "CREATE (f:FOO {a: ""1""}), (b:FOO {a: ""2""}) RETURN f, b"; SQuery 0 []; SClose 0;
    CPrepare "This is an invalid query"; SQuery 1 []; SClose 1;
    CPrepare by_a; SQuery 2 []; RNext 1; SClose 2;
    CPrepare by_a; SQuery 3 []; RNext 2; RNext 2; SClose 3;
    CPrepare "MATCH (f:FOO) DELETE f"; SExec 4 []; CClose].
Example TestBoltStmt_Failure : session rec_TestBoltStmt_Failure ops_TestBoltStmt_Failure =
  Some [Handle 0; Handle 0; Done; Handle 1; Failed syntax; Done; Handle 2; Handle 1; Row [s "1"]; Done;
        Handle 3; Handle 2; Row [s "1"]; Row [s "2"]; Done; Handle 4; Affected [RAOk 2]; Done].
Proof. vm_compute. reflexivity. Qed.
Definition del_path := str_of "MATCH (f:FOO)-[b:TO]->(c:BAR)<-[d:FROM]-(e:BAZ) DELETE f, b, c, d, e".
Definition node (id : Z) (l : string) (ps : list (str * goval)) := VNode id [str_of l] ps.
Definition ops_TestBoltStmt_MixedObjects : list op :=
  [CPrepare "CREATE (f:FOO {a: ""1""})-[b:TO]->(c:BAR)<-[d:FROM]-(e:BAZ) RETURN f, b, c, d, e"; SQuery 0 []; RNext 0; SClose 0;
    CPrepare del_path; SExec 1 []; CClose].
Example TestBoltStmt_MixedObjects : session rec_TestBoltStmt_MixedObjects ops_TestBoltStmt_MixedObjects =
  Some [Handle 0; Handle 0;
        Row [node 182 "FOO" ["a" :> s "1"]; VRel 173 182 132 (str_of "TO") []; node 132 "BAR" []; VRel 197 35 132 (str_of "FROM") []; node 35 "BAZ" []];
        Done; Handle 1; Affected [RAOk 5]; Done].
Proof. vm_compute. reflexivity. Qed.
Definition ops_TestBoltStmt_Path : list op :=
  [CPrepare "CREATE path=(f:FOO {a: ""1""})-[b:TO]->(c:BAR)<-[d:FROM]-(e:BAZ) RETURN path"; SQuery 0 []; RNext 0; SClose 0;
    CPrepare del_path; SExec 1 []; CClose].
Example TestBoltStmt_Path : session rec_TestBoltStmt_Path ops_TestBoltStmt_Path =
  Some [Handle 0; Handle 0;
        Row [VPath [node 36 "FOO" ["a" :> s "1"]; node 19 "BAR" []; node 28 "BAZ" []]
               [VURel 53 (str_of "TO") []; VURel 219 (str_of "FROM") []] [1; 1; -2; 2]];
        Done; Handle 1; Affected [RAOk 5]; Done].
Proof. vm_compute. reflexivity. Qed.
Definition ops_TestBoltStmt_SingleRel : list op :=
  [CPrepare "CREATE (f:FOO)-[b:BAR {a: {a}, b: {b}, c: {c}, d: {d}, e: {e}, f: {f}, g: {g}, h: {h}}]->(c:BAZ) return b";
    SQuery 0 ["g" :> VInt KInt32 2147483647; "h" :> VBool false; "d" :> VNil; "a" :> s "foo"; "b" :> i 9223372036854775807; "c" :> VBool true;
              "e" :> VSlice nums; "f" :> f34];
    RNext 0; SClose 0; CPrepare "MATCH (f:FOO)-[b:BAR]->(c:BAZ) DELETE f, b, c"; SExec 1 []; CClose].
Example TestBoltStmt_SingleRel : session rec_TestBoltStmt_SingleRel ops_TestBoltStmt_SingleRel =
  Some [Handle 0; Handle 0;
        Row [VRel 86 90 95 (str_of "BAR") ["a" :> s "foo"; "b" :> i 9223372036854775807; "c" :> VBool true; "e" :> VSlice nums; "f" :> f34;
               "g" :> i 2147483647; "h" :> VBool false]];
        Done; Handle 1; Affected [RAOk 3]; Done].
Proof. vm_compute. reflexivity. Qed.
Definition ops_TestBoltStmt_SingleNode : list op :=
  [CPrepare "CREATE (f:FOO {a: {a}, b: {b}, c: {c}, d: {d}, e: {e}, f: {f}, g: {g}, h: {h}}) return f";
    SQuery 0 ["h" :> VBool false; "d" :> VNil; "a" :> s "foo"; "b" :> vint 1; "c" :> VBool true; "e" :> VSlice nums; "f" :> f34; "g" :> vint (-1)];
    RNext 0; SClose 0; CPrepare "MATCH (f:FOO) DELETE f"; SExec 1 []; CClose].
Example TestBoltStmt_SingleNode : session rec_TestBoltStmt_SingleNode ops_TestBoltStmt_SingleNode =
  Some [Handle 0; Handle 0;
        Row [node 67 "FOO" ["a" :> s "foo"; "b" :> i 1; "c" :> VBool true; "e" :> VSlice nums; "f" :> f34; "g" :> i (-1); "h" :> VBool false]];
        Done; Handle 1; Affected [RAOk 1]; Done].
Proof. vm_compute. reflexivity. Qed.
Definition ops_TestBoltStmt_SelectIntLimits : list op :=
  [CPrepare "RETURN {min64} as min64, {min32} as min32, {min16} as min16, {min8} as min8, -16, {max8} as max8, {max16} as max16, {max32} as max32, {max64} as max64";
    SQuery 0 ["min64" :> vint (-9223372036854775808); "min32" :> vint (-2147483648); "min16" :> vint (-32768); "min8" :> vint (-128);
              "max8" :> vint 127; "max16" :> vint 32767; "max32" :> vint 2147483647; "max64" :> vint 9223372036854775807];
    RNext 0; RNext 0; CClose].
Example TestBoltStmt_SelectIntLimits : session rec_TestBoltStmt_SelectIntLimits ops_TestBoltStmt_SelectIntLimits =
  Some [Handle 0; Handle 0;
        Row [i (-9223372036854775808); i (-2147483648); i (-32768); i (-128); i (-16); i 127; i 32767; i 2147483647; i 9223372036854775807];
        End (Some (s "r")); Done].
Proof. vm_compute. reflexivity. Qed.
(** Chunk size 10; the last chunk recorded has 78 bytes (see C14, C15). *)
Definition ops_TestBoltStmt_ManyChunks : list op :=
  [CSetChunkSize 10; CPrepare "RETURN ""1 2 3 4 5 6 7 8 9 10"" as a,  ""1 2 3 4 5 6 7 8 9 10"" as b, ""1 2 3 4 5 6 7 8 9 10"" as c";
    SQuery 0 []; RMeta 0; RNext 0; RNext 0; CClose].
Example TestBoltStmt_ManyChunks : session rec_TestBoltStmt_ManyChunks ops_TestBoltStmt_ManyChunks =
  Some [Done; Handle 0; Handle 0; Cols [str_of "a"; str_of "b"; str_of "c"];
        Row [s "1 2 3 4 5 6 7 8 9 10"; s "1 2 3 4 5 6 7 8 9 10"; s "1 2 3 4 5 6 7 8 9 10"]; End (Some (s "r")); Done].
Proof. vm_compute. reflexivity. Qed.
Definition ab (a : Z) (b : string) : list (str * goval) := ["a" :> vint a; "b" :> s b].
Definition ba (a : Z) (b : string) : list (str * goval) := ["b" :> s b; "a" :> vint a].
Definition got (id : Z) (l : string) (a : Z) (b : string) := node id l ["a" :> i a; "b" :> s b].
Definition del_all := str_of "MATCH (f:FOO), (b:BAR), (c:BAZ) DELETE f, b, c".
Definition creates := [str_of "CREATE (f:FOO {a: {a}, b: {b}})"; str_of "CREATE (b:BAR {a: {a}, b: {b}})"; str_of "CREATE (c:BAZ {a: {a}, b: {b}})"].
Definition creates_r := [str_of "CREATE (f:FOO {a: {a}, b: {b}}) RETURN f"; str_of "CREATE (b:BAR {a: {a}, b: {b}}) RETURN b"; str_of "CREATE (c:BAZ {a: {a}, b: {b}}) RETURN c"].
Definition ops_TestBoltStmt_PipelineExec : list op :=
  [CPreparePipeline creates; SExecPipeline 0 [ab 1 "two"; ab 2 "three"; ab 3 "four"]; SClose 0;
    CPrepare "MATCH (f:FOO), (b:BAR), (c:BAZ) return f, b, c;"; SQuery 1 []; RNext 0; SClose 1; CPrepare del_all; SExec 2 []; CClose].
Example TestBoltStmt_PipelineExec : session rec_TestBoltStmt_PipelineExec ops_TestBoltStmt_PipelineExec =
  Some [Handle 0; Affected [RAOk 1; RAOk 1; RAOk 1]; Done; Handle 1; Handle 0;
        Row [got 19 "FOO" 1 "two"; got 28 "BAR" 2 "three"; got 36 "BAZ" 3 "four"]; Done; Handle 2; Affected [RAOk 3]; Done].
Proof. vm_compute. reflexivity. Qed.
Definition ops_TestBoltStmt_PipelineQuery : list op :=
  [CPreparePipeline creates_r; SQueryPipeline 0 [ab 1 "two"; ab 2 "three"; ba 3 "four"];
    RNextPipeline 0; RNextPipeline 0; RNextPipeline 1; RNextPipeline 1; RNextPipeline 2; RNextPipeline 2; RClose 2; SClose 0;
    CPrepare del_all; SExec 1 []; CClose].
Example TestBoltStmt_PipelineQuery : session rec_TestBoltStmt_PipelineQuery ops_TestBoltStmt_PipelineQuery =
  Some [Handle 0; Handle 0; Row [got 90 "FOO" 1 "two"]; NextQuery 1; Row [got 95 "BAR" 2 "three"]; NextQuery 2; Row [got 67 "BAZ" 3 "four"]; NoMore;
        Done; Done; Handle 1; Affected [RAOk 3]; Done].
Proof. vm_compute. reflexivity. Qed.
Definition ops_TestBoltStmt_PipelineQueryCloseBeginning : list op :=
  [CPreparePipeline creates_r; SQueryPipeline 0 [ba 1 "two"; ab 2 "three"; ab 3 "four"]; RClose 0; SClose 0;
    CPrepare del_all; SExec 1 []; CClose].
Example TestBoltStmt_PipelineQueryCloseBeginning : session rec_TestBoltStmt_PipelineQueryCloseBeginning ops_TestBoltStmt_PipelineQueryCloseBeginning =
  Some [Handle 0; Handle 0; Done; Done; Handle 1; Affected [RAOk 3]; Done].
Proof. vm_compute. reflexivity. Qed.
Definition ops_TestBoltStmt_PipelineQueryCloseMiddle : list op :=
  [CPreparePipeline creates_r; SQueryPipeline 0 [ba 1 "two"; ab 2 "three"; ab 3 "four"]; RNextPipeline 0; RNextPipeline 0; RClose 1; SClose 0;
    CPrepare del_all; SExec 1 []; CClose].
Example TestBoltStmt_PipelineQueryCloseMiddle : session rec_TestBoltStmt_PipelineQueryCloseMiddle ops_TestBoltStmt_PipelineQueryCloseMiddle =
  Some [Handle 0; Handle 0; Row [got 78 "FOO" 1 "two"]; NextQuery 1; Done; Done; Handle 1; Affected [RAOk 3]; Done].
Proof. vm_compute. reflexivity. Qed.

(** ** tx_test.go *)
Definition make_path := str_of "CREATE (f:FOO {a: ""1""})-[b:TO]->(c:BAR)<-[d:FROM]-(e:BAZ) RETURN f, b, c, d, e".
Definition find_path := str_of "MATCH (f:FOO {a: ""1""})-[b:TO]->(c:BAR)<-[d:FROM]-(e:BAZ) RETURN f, b, c, d, e".
Definition ops_TestBoltTx_Commit : list op :=
  [CBegin; CPrepare make_path; SExec 0 []; TCommit 0; SClose 0; CPrepare find_path; SQuery 1 []; RNext 0; SClose 1;
    CPrepare del_path; SExec 2 []; CClose].
Example TestBoltTx_Commit : session rec_TestBoltTx_Commit ops_TestBoltTx_Commit =
  Some [Handle 0; Handle 0; Affected [RAOk 5]; Done; Done; Handle 1; Handle 0;
        Row [node 154 "FOO" ["a" :> s "1"]; VRel 56 154 184 (str_of "TO") []; node 184 "BAR" []; VRel 173 33 184 (str_of "FROM") []; node 33 "BAZ" []];
        Done; Handle 2; Affected [RAOk 5]; Done].
Proof. vm_compute. reflexivity. Qed.
Definition ops_TestBoltTx_Rollback : list op :=
  [CBegin; CPrepare make_path; SExec 0 []; TRollback 0; SClose 0; CPrepare find_path; SQuery 1 []; RNext 0; SClose 1; CClose].
Example TestBoltTx_Rollback : session rec_TestBoltTx_Rollback ops_TestBoltTx_Rollback =
  Some [Handle 0; Handle 0; Affected [RAOk 5]; Done; Done; Handle 1; Handle 0; End (Some (s "r")); Done; Done].
Proof. vm_compute. reflexivity. Qed.

(** ** Recordings whose test is no longer in the repository, with calls that give them *)
Definition ops_TestBoltConn_ExecNeo : list op :=
  [CExec "CREATE (f:FOO {a: {a}, b: {b}, c: {c}, d: {d}, e: {e}, f: {f}, g: {g}, h: {h}})-[b:BAR]->(c:BAZ)"
      ["b" :> vint 1; "c" :> VBool true; "d" :> VNil; "e" :> VSlice [vint 1; vint 2; vint 3]; "f" :> f34; "g" :> vint (-1); "h" :> VBool false; "a" :> s "foo"];
    CExec "MATCH (f:FOO) SET f.a = ""bar"";" []; CExec "MATCH (f:FOO)-[b:BAR]->(c:BAZ) DELETE f, b, c" []; CClose].
Example TestBoltConn_ExecNeo : session rec_TestBoltConn_ExecNeo ops_TestBoltConn_ExecNeo =
  Some [Affected [RAOk 3]; Affected [RAOk 0]; Affected [RAOk 3]; Done].
Proof. vm_compute. reflexivity. Qed.
Definition ops_TestBoltConn_PipelineExec : list op :=
  [CExecPipeline creates [ab 1 "two"; ab 2 "three"; ba 3 "four"];
    CPrepare "MATCH (f:FOO), (b:BAR), (c:BAZ) return f, b, c;"; SQuery 1 []; RNext 0; RNext 0; SClose 1; CExec del_all []; CClose].
Example TestBoltConn_PipelineExec : session rec_TestBoltConn_PipelineExec ops_TestBoltConn_PipelineExec =
  Some [Affected [RAOk 1; RAOk 1; RAOk 1]; Handle 1; Handle 0;
        Row [got 1700 "FOO" 1 "two"; got 1701 "BAR" 2 "three"; got 1702 "BAZ" 3 "four"]; End (Some (s "r")); Done; Affected [RAOk 3]; Done].
Proof. vm_compute. reflexivity. Qed.
Definition ops_TestBoltConn_PipelineQuery : list op :=
  [CQueryPipeline creates_r [ab 1 "two"; ab 2 "three"; ab 3 "four"];
    RNextPipeline 0; RNextPipeline 0; RNextPipeline 1; RNextPipeline 1; RNextPipeline 2; RNextPipeline 2; RClose 2; CExec del_all []; CClose].
Example TestBoltConn_PipelineQuery : session rec_TestBoltConn_PipelineQuery ops_TestBoltConn_PipelineQuery =
  Some [Handle 0; Row [got 1693 "FOO" 1 "two"]; NextQuery 1; Row [got 1694 "BAR" 2 "three"]; NextQuery 2; Row [got 1695 "BAZ" 3 "four"]; NoMore;
        Done; Affected [RAOk 3]; Done].
Proof. vm_compute. reflexivity. Qed.

(** The check is strict: other parameters, calls missing or calls too many are noticed. *)
Example strict :
  session rec_TestBoltConn_SelectOne [CQuery "RETURN 2;" []; RMeta 0; RNext 0; RNext 0; CClose] = None /\
  session rec_TestBoltConn_SelectOne [CQuery "RETURN 1;" []; RNext 0; CClose] = None /\
  session rec_TestBoltStmt_ManyChunks
    [CPrepare "RETURN ""1 2 3 4 5 6 7 8 9 10"" as a,  ""1 2 3 4 5 6 7 8 9 10"" as b, ""1 2 3 4 5 6 7 8 9 10"" as c";
     SQuery 0 []; RMeta 0; RNext 0; RNext 0; CClose] = None.
Proof. vm_compute. repeat split. Qed.

(** ** Long messages: two chunks sent, five received *)
Definition ret_abcd := str_of "RETURN {a} as a, {b} as b, {c} as c, {d} as d".
Definition dashes (n : Z) := VStr (times n [45]).
Definition dashed (n : Z) (v : goval) : bool :=
  match v with VStr l => (zlen l =? n) && forallb (Z.eqb 45) l | _ => false end.
Definition limits (p : Z -> goval -> bool) (o : option (list seen)) : bool :=
  match o with
  | Some [Handle O; Handle O; Cols [[97]; [98]; [99]; [100]]; Row [a; b; c; d]; End (Some (VStr [114])); Done] =>
      p 15 a && p 16 b && p 256 c && p 65536 d
  | _ => false
  end.
Definition ops_TestBoltStmt_SelectStringLimits : list op :=
    [CPrepare ret_abcd; SQuery 0 ["a" :> dashes 15; "b" :> dashes 16; "c" :> dashes 256; "d" :> dashes 65536]; RMeta 0; RNext 0; RNext 0; CClose].
Example TestBoltStmt_SelectStringLimits :
  limits dashed (session rec_TestBoltStmt_SelectStringLimits ops_TestBoltStmt_SelectStringLimits) = true.
Proof. vm_compute. reflexivity. Qed.
