-Q theories Verif
theories/Base.v
theories/M_Data.v
theories/M_Scoring.v
theories/Spec.v
theories/P_Scoring.v
theories/P_Feasible.v
theories/P_Score.v
theories/P_Minor.v
theories/Spec_Score.v
theories/P_Finite.v
theories/T_Score.v
theories/M_Union.v
theories/M_Names.v
theories/M_Build.v
theories/P_Union.v
theories/Spec_Input.v
theories/P_Con.v
theories/P_Compile.v
theories/P_Resolve.v
theories/P_Limits.v
theories/P_Input.v
theories/P_Input2.v
theories/P_Check.v
theories/Spec_Cost.v
theories/P_Cost.v
theories/T_Cost.v
theories/P_Input3.v
theories/T_Input.v
theories/Spec_Meta.v
theories/P_Meta.v
theories/T_Meta.v
theories/Spec_Extra.v
theories/P_Extra.v
theories/T_Extra.v
theories/Spec_Order.v
theories/P_Order.v
theories/T_Order.v
theories/Spec_Order2.v
theories/P_Order2.v
theories/T_Order2.v
theories/P_Grade.v
theories/T_Grade.v
theories/M_Rng.v
theories/M_Critical.v
theories/Spec_Search.v
theories/P_Critical.v
theories/M_Search.v
theories/P_Sums.v
theories/P_Rng.v
theories/P_Search1.v
theories/P_Search2.v
theories/P_Search3.v
theories/P_Search4.v
theories/P_Search5.v
theories/P_Search6.v
theories/P_Built.v
theories/T_Search.v
theories/M_Flow.v
theories/Spec_Flow.v
theories/Spec_Calls.v
theories/P_Flow1.v
theories/P_Flow2.v
theories/P_Flow3.v
theories/P_Flow4.v
theories/P_Flow5.v
theories/P_Flow6.v
theories/P_Flow7.v
theories/P_Brute.v
theories/T_Flow.v
theories/P_Best.v
theories/T_Best.v
theories/M_Climb.v
theories/M_Threads.v
theories/Spec_Climb.v
theories/Spec_Threads.v
theories/P_Climb1.v
theories/P_Climb2.v
theories/P_Climb3.v
theories/P_Climb4.v
theories/P_Threads.v
theories/P_Climb5.v
theories/P_Climb6.v
theories/P_Session.v
theories/T_Climb.v
theories/P_Exact.v
theories/T_Exact.v
theories/T_Optional.v
theories/Spec_Reach.v
theories/P_Reach.v
theories/T_Reach.v
theories/M_Status.v
theories/Spec_Status.v
theories/P_Status.v
theories/T_Status.v
theories/M_Script.v
theories/Spec_Script.v
theories/P_Script1.v
theories/P_Names.v
theories/P_Script2.v
theories/P_Script3.v
theories/P_Script4.v
theories/P_Script5.v
theories/P_Script6.v
theories/P_Script7.v
theories/P_Script8.v
theories/T_Script.v
theories/M_Output.v
theories/Spec_Output.v
theories/P_Output1.v
theories/P_Output2.v
theories/T_Output.v
theories/Spec_Labels.v
theories/T_Labels.v
theories/Spec_Names.v
theories/T_Names.v
theories/Spec_Reject.v
theories/T_Reject.v
theories/M_Main.v
theories/T_Main.v
theories/M_Seed.v
theories/Spec_Repro.v
theories/P_Repro.v
theories/T_Repro.v
theories/M_Csv.v
theories/T_Csv.v
theories/Spec_Program.v
theories/T_Program.v
theories/Spec_Deadline.v
theories/T_Deadline.v
theories/T_More.v
theories/M_Effort.v
theories/Spec_Effort.v
theories/P_Effort.v
theories/P_Effort2.v
theories/P_Effort3.v
theories/P_Effort4.v
theories/T_Effort.v
theories/T_Report.v
theories/T_Crash.v
theories/P_Anon.v
theories/T_Anon.v
theories/Spec_Pareto.v
theories/P_Pareto.v
theories/T_Pareto.v
theories/M_Warn.v
theories/Spec_Warn.v
theories/P_Warn.v
theories/T_Warn.v
theories/M_Log.v
theories/Spec_Log.v
theories/P_Log.v
theories/T_Log.v
theories/M_Args.v
theories/Spec_Args.v
theories/P_Args.v
theories/T_Args.v
theories/Spec_Clash.v
theories/T_Clash.v
theories/T_One.v
theories/M_Values.v
theories/Spec_Values.v
theories/P_Values.v
theories/T_Values.v
theories/T_Bound.v
theories/M_Inline.v
theories/Spec_Inline.v
theories/P_Inline.v
theories/T_Inline.v
theories/M_Handover.v
theories/Spec_Handover.v
theories/P_Handover.v
theories/T_Handover.v
theories/Spec_Times.v
theories/P_Times.v
theories/T_Times.v
theories/M_Process.v
theories/P_Process.v
theories/T_Process.v
theories/M_Negation.v
theories/T_Negation.v
