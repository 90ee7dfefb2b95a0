-Q theories Verif
theories/AC_Model.v
theories/AC_Proofs.v
theories/AMap.v
theories/Bmfun_Model.v
theories/Bmfun_Proofs.v
theories/CS_Float.v
theories/CS_Model.v
theories/CS_Ops.v
theories/CS_Proofs.v
theories/CS_Word.v
theories/Common_Model.v
theories/Cond_Model.v
theories/Decimal_Text.v
theories/Delete_Model.v
theories/Delete_Proofs.v
theories/Diode_Model.v
theories/Diode_Proofs.v
theories/Dispatcher_Model.v
theories/Elements_Model.v
theories/Elements_Proofs.v
theories/Expand_Model.v
theories/Expr_Model.v
theories/Expr_Proofs.v
theories/Expr_Sem.v
theories/Fault_Model.v
theories/Fault_Proofs.v
theories/Fault_Text.v
theories/Fft_Model.v
theories/Fft_Proofs.v
theories/FieldSums.v
theories/Findf_Model.v
theories/Ftos_Model.v
theories/Ftos_Num.v
theories/Ftos_Proofs.v
theories/Interp_Model.v
theories/Interp_Proofs.v
theories/Lines_Model.v
theories/List_Model.v
theories/Logic_Model.v
theories/Loops.v
theories/Matrix_Exact.v
theories/Matrix_InPlace.v
theories/Matrix_LU.v
theories/Matrix_Layout.v
theories/Matrix_Load.v
theories/Matrix_Main.v
theories/Matrix_Model.v
theories/Matrix_Spec.v
theories/Measure_Model.v
theories/Model_Model.v
theories/Mos_Caps.v
theories/Mos_Model.v
theories/Mos_Proofs.v
theories/Mos_Settle.v
theories/Mos_Slopes.v
theories/Nodemap_Model.v
theories/Opts_Model.v
theories/Opts_Proofs.v
theories/Opts_Text.v
theories/Out_Model.v
theories/P_AC.v
theories/P_Bmfun.v
theories/P_Common.v
theories/P_Cond.v
theories/P_Converge.v
theories/P_Delete.v
theories/P_Diode.v
theories/P_Dispatcher.v
theories/P_Elements.v
theories/P_Expand.v
theories/P_Expr.v
theories/P_Fault.v
theories/P_Fft.v
theories/P_Findf.v
theories/P_Ftos.v
theories/P_Interp.v
theories/P_Keyword.v
theories/P_Lines.v
theories/P_List.v
theories/P_Logic.v
theories/P_Matrix.v
theories/P_Measure.v
theories/P_Model.v
theories/P_Mos.v
theories/P_Nodemap.v
theories/P_Number.v
theories/P_Opts.v
theories/P_Output.v
theories/P_Params.v
theories/P_Parse.v
theories/P_Poly.v
theories/P_Port.v
theories/P_Probes.v
theories/P_Pulse.v
theories/P_Quote.v
theories/P_Scanner.v
theories/P_Scope.v
theories/P_Setup.v
theories/P_Solver.v
theories/P_Spice.v
theories/P_Spline.v
theories/P_Storage.v
theories/P_Sweep.v
theories/P_Switch.v
theories/P_Transient.v
theories/P_Trln.v
theories/P_TrlnAc.v
theories/P_Unique.v
theories/P_Value.v
theories/P_Verilog.v
theories/P_Wmatch.v
theories/P_Xopen.v
theories/P_Xprobe.v
theories/Params_Model.v
theories/Parse_Complete.v
theories/Parse_Dump.v
theories/Parse_Model.v
theories/Parse_Proofs.v
theories/Parse_Scan.v
theories/Parse_Spec.v
theories/Poly_Model.v
theories/Port_Model.v
theories/Port_Proofs.v
theories/Probes_Canon.v
theories/Probes_Cmd.v
theories/Probes_Model.v
theories/Probes_Proofs.v
theories/Probes_Text.v
theories/Pulse_Model.v
theories/Qnum.v
theories/Quote_Proofs.v
theories/Scope_Model.v
theories/Scope_Proofs.v
theories/Setup_Model.v
theories/Solver_Content.v
theories/Solver_Loaded.v
theories/Solver_Model.v
theories/Solver_Proofs.v
theories/Spice_Model.v
theories/Spice_Proofs.v
theories/Spline_Model.v
theories/Spline_Proofs.v
theories/Storage_Model.v
theories/Sweep_Model.v
theories/Sweep_Proofs.v
theories/Switch_Model.v
theories/Tran_Model.v
theories/Tran_Proofs.v
theories/Tran_Sweep.v
theories/Trln_Model.v
theories/Trln_Proofs.v
theories/Value_Model.v
theories/Verilog_Model.v
theories/Verilog_Proofs.v
theories/Wmatch_Model.v
theories/Xopen_Model.v
theories/Xprobe_Model.v
theories/Xprobe_Proofs.v
