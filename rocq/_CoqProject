-Q theories Verif

theories/Base.v
theories/M_Text.v
theories/S_Text.v
theories/L_Text.v
theories/M_Rewriter.v
theories/M_Span.v
theories/S_Span.v
theories/L_Span.v
theories/M_Positions.v
theories/L_Positions.v
theories/P_Text.v
theories/M_Instr.v
theories/S_Instr.v
theories/L_Instr.v
theories/P_Instr.v
theories/M_Run.v
theories/S_Run.v
theories/L_Run.v
theories/L_RunFinal.v
theories/L_Resume.v
theories/L_History.v
theories/L_Total.v
theories/L_Unique.v
theories/L_Denied.v
theories/P_Run.v
theories/M_Exec.v
theories/S_Exec.v
theories/L_Exec.v
theories/P_Exec.v
theories/M_Visitor.v
theories/S_Visitor.v
theories/L_Visitor.v
theories/L_VisitorLive.v
theories/L_VisitorWalk.v
theories/L_VisitorDead.v
theories/S_Walk.v
theories/L_VisitorLoop.v
theories/L_VisitorTotal.v
theories/L_VisitorMaps.v
theories/L_VisitorFacts.v
theories/S_Candidates.v
theories/L_Candidates.v
theories/P_Visitor.v
theories/P_Warn.v
theories/M_Output.v
theories/S_Output.v
theories/L_Output.v
theories/L_Progress.v
theories/P_Output.v
theories/M_Sqlite.v
theories/P_Sqlite.v
theories/M_Options.v
theories/P_Options.v
theories/M_Skill.v
theories/P_Skill.v
theories/M_Lock.v
theories/P_Lock.v
theories/M_Config.v
theories/P_Config.v
theories/P_Builtins.v
theories/M_Directives.v
theories/S_Directives.v
theories/L_Directives.v
theories/P_Directives.v
theories/L_Config.v
theories/M_Parsing.v
theories/P_Parsing.v
theories/P_ParseWarn.v
theories/M_Cursor.v
theories/P_Cursor.v
theories/M_Go.v
theories/S_Go.v
theories/L_Go.v
theories/P_Go.v
theories/M_Rust.v
theories/P_Rust.v
theories/M_Foundry.v
theories/S_Foundry.v
theories/P_Foundry.v
theories/M_Main.v
theories/P_Main.v
theories/M_Select.v
theories/S_Select.v
theories/P_Select.v
theories/M_Ts.v
theories/P_Ts.v
theories/M_Anchor.v
theories/P_Anchor.v
theories/P_EndToEnd.v
theories/P_Resume.v
theories/P_Progress.v
theories/P_Look.v
theories/M_Tree.v
theories/S_Tree.v
theories/L_Tree.v
theories/P_GoTree.v
theories/P_Php.v
theories/M_Syn.v
theories/S_Syn.v
theories/L_Syn.v
theories/P_Syn.v
theories/M_Swc.v
theories/S_Swc.v
theories/L_Swc.v
theories/P_Swc.v
theories/S_Sol.v
theories/P_Sol.v
theories/M_Solang.v
theories/S_Solang.v
theories/P_Solang.v
theories/S_SolangCalls.v
theories/P_SolangCalls.v
theories/M_Find.v
theories/S_Find.v
theories/P_Find.v
theories/M_Commands.v
theories/S_Commands.v
theories/P_Commands.v
theories/S_Crash.v
theories/P_Crash.v
theories/M_Cli.v
theories/S_Cli.v
theories/P_Cli.v
theories/S_SpanRead.v
theories/P_SpanRead.v
theories/S_DryRun.v
theories/L_DryRun.v
theories/P_DryRun.v
theories/P_Deleted.v
theories/M_Console.v
theories/L_Console.v
theories/P_Console.v
theories/S_Indep.v
theories/S_Part.v
theories/L_Part.v
theories/L_Indep.v
theories/P_Indep.v
theories/P_Part.v
theories/S_Ignore.v
theories/L_Ignore.v
theories/P_Ignore.v
theories/S_Placed.v
theories/P_Placed.v
theories/M_Project.v
theories/P_Project.v
theories/M_Program.v
theories/P_Program.v
theories/S_Layout.v
theories/L_Layout.v
theories/M_Lang.v
theories/S_Lang.v
theories/L_LayTree.v
theories/L_LaySyn.v
theories/L_LaySwc.v
theories/L_LaySol.v
theories/L_Laid.v
theories/P_Lang.v
theories/L_Ext.v
theories/S_Source.v
theories/P_Source.v
theories/S_Patience.v
theories/P_Patience.v
theories/S_Move.v
theories/L_Move.v
theories/L_MoveText.v
theories/P_Move.v
theories/P_MoveProject.v
theories/S_Place.v
theories/P_Place.v
theories/S_Deny.v
theories/L_Deny.v
theories/P_Deny.v
theories/S_Over.v
theories/P_Over.v
theories/P_Default.v
theories/S_Struck.v
theories/L_Struck.v
theories/P_Struck.v
theories/P_Names.v
