-Q theories Verif
theories/GoBase.v
theories/M_Types.v
theories/M_Layout.v
theories/M_Leb128.v
theories/S_Leb128.v
theories/L_Leb128.v
theories/P_Leb128.v
theories/M_State.v
theories/M_Utf.v
theories/M_Load.v
theories/M_Store.v
theories/M_Flat.v
theories/M_Canon.v
theories/S_Layout.v
theories/L_Layout.v
theories/S_Access.v
theories/L_Access.v
theories/L_Variant.v
theories/L_Despecialize.v
theories/L_FuncType.v
theories/P_Layout.v
theories/S_Utf.v
theories/S_Values.v
theories/L_Labels.v
theories/S_Memory.v
theories/L_Mem.v
theories/L_Utf.v
theories/L_Flags.v
theories/L_Frame.v
theories/L_RoundTrip.v
theories/L_StoreLoad.v
theories/L_Lifted.v
theories/S_Format.v
theories/P_Memory.v
theories/P_Values.v
theories/S_Flat.v
theories/L_Format.v
theories/P_Format.v
theories/S_Requests.v
theories/L_Requests.v
theories/P_Requests.v
theories/S_Variables.v
theories/L_Variables.v
theories/P_Variables.v
theories/S_Blame.v
theories/L_Blame.v
theories/P_Blame.v
theories/S_NextCore.v
theories/L_NextCore.v
theories/P_NextCore.v
theories/S_Inside.v
theories/S_Looks.v
theories/L_Looks.v
theories/L_Inside.v
theories/P_Inside.v
theories/S_Accept.v
theories/L_Flat.v
theories/P_Flat.v
theories/L_Accept.v
theories/P_Accept.v
theories/S_FlatFormat.v
theories/L_FlatFormat.v
theories/L_FlatLooks.v
theories/P_Looks.v
theories/S_Reached.v
theories/L_Reached.v
theories/L_FlatReached.v
theories/L_TextSize.v
theories/P_Reached.v
theories/P_FlatFormat.v
theories/L_FlagWords.v
theories/S_Handles.v
theories/L_Handles.v
theories/P_Handles.v
theories/S_HandleIndex.v
theories/L_HandleIndex.v
theories/P_HandleIndex.v
theories/S_Lends.v
theories/L_Lends.v
theories/P_Lends.v
theories/S_Canon.v
theories/L_Guards.v
theories/L_Alloc.v
theories/L_CtxFree.v
theories/L_Canon.v
theories/P_Canon.v
theories/M_Api.v
theories/M_Binary.v
theories/S_Binary.v
theories/L_Binary.v
theories/P_Binary.v
theories/S_BinaryLoose.v
theories/L_BinaryLoose.v
theories/P_BinaryLoose.v
theories/M_Runtime.v
theories/P_Runtime.v
theories/M_Text.v
theories/M_WatLex.v
theories/S_WatLex.v
theories/L_WatLex.v
theories/L_WatTokens.v
theories/L_WatNum.v
theories/P_WatLex.v
theories/M_WitLex.v
theories/S_WitLex.v
theories/L_WitLex.v
theories/L_WitToks.v
theories/L_WitHist.v
theories/P_WitLex.v
theories/M_LexErrors.v
theories/S_LexErrors.v
theories/P_LexErrors.v
theories/S_WitErrors.v
theories/P_WitErrors.v
theories/M_ParseBase.v
theories/M_Strconv.v
theories/M_WatAst.v
theories/M_WatParse.v
theories/S_WatParse.v
theories/L_ParseBase.v
theories/L_WatSim.v
theories/L_ParseTotal.v
theories/L_WatTotal.v
theories/L_WatLit.v
theories/L_WatSound.v
theories/L_WatComplete.v
theories/S_WatPrint.v
theories/L_WatBridge.v
theories/L_WatPrint.v
theories/P_WatParse.v
theories/M_WatLocate.v
theories/S_WatStop.v
theories/L_WatRel.v
theories/L_WatStop.v
theories/L_WatEnd.v
theories/L_WatNote.v
theories/L_WatViable.v
theories/L_WatPlace.v
theories/P_WatPlace.v
theories/S_Float.v
theories/L_Float.v
theories/P_Float.v
theories/S_Positions.v
theories/P_Positions.v
theories/M_WastParse.v
theories/S_WastParse.v
theories/S_WastPrint.v
theories/L_WastParse.v
theories/P_WastParse.v
theories/M_WastLocate.v
theories/S_WastStop.v
theories/L_WastRel.v
theories/L_WastStop.v
theories/L_WastViable.v
theories/L_WastPlace.v
theories/P_WastPlace.v
theories/L_WatOrder.v
theories/P_WatOrder.v
theories/M_Bufio.v
theories/S_Bufio.v
theories/L_Bufio.v
theories/P_Bufio.v
theories/S_LexResume.v
theories/L_LexResume.v
theories/P_LexResume.v
theories/S_WitResume.v
theories/L_WitResume.v
theories/P_WitResume.v
theories/M_WitAst.v
theories/M_WitParse.v
theories/S_WitParse.v
theories/L_WitSim.v
theories/L_WitRel.v
theories/L_WitStop.v
theories/L_WitLit.v
theories/L_WitSound.v
theories/L_WitComplete.v
theories/L_WitBridge.v
theories/S_WitPrint.v
theories/L_WitPrint.v
theories/P_WitParse.v
theories/L_WitViable.v
theories/M_WitLocate.v
theories/S_WitStop.v
theories/L_WitNote.v
theories/L_WitPlace.v
theories/P_WitPlace.v
theories/M_AlignFloat.v
theories/L_AlignFloat.v
theories/P_AlignFloat.v
theories/M_LayoutFloat.v
theories/S_LayoutFloat.v
theories/L_LayoutFloat.v
theories/P_LayoutFloat.v
theories/S_Calls.v
theories/L_Calls.v
theories/P_Calls.v
theories/S_Width.v
theories/L_Width.v
theories/P_Width.v
theories/S_Linked.v
theories/L_Linked.v
theories/P_Linked.v
theories/S_HandleCalls.v
theories/L_HandleCalls.v
theories/P_HandleCalls.v
theories/M_StoreCopy.v
theories/S_StoreCopy.v
theories/P_StoreCopy.v
theories/M_WatDecoder.v
theories/P_WatDecoder.v
theories/M_Stream.v
theories/L_Stream.v
theories/P_Stream.v
theories/S_HandleValues.v
theories/L_HandleValues.v
theories/P_HandleValues.v
theories/S_HandleNames.v
theories/L_HandleNames.v
theories/P_HandleNames.v
theories/S_Subtype.v
theories/L_Subtype.v
theories/P_Subtype.v
theories/L_WitReprint.v
theories/P_WitReprint.v
theories/L_WatReprint.v
theories/P_WatReprint.v
theories/S_Own.v
theories/L_Own.v
theories/L_OwnSame.v
theories/P_Own.v
theories/S_Rename.v
theories/L_Rename.v
theories/P_Rename.v
theories/S_Move.v
theories/L_Move.v
theories/P_Move.v
theories/L_OwnPlace.v
theories/P_OwnPlace.v
theories/L_Reads.v
theories/P_Reads.v
theories/S_Alike.v
theories/L_Alike.v
theories/P_Alike.v
theories/L_Plain.v
theories/P_Plain.v
theories/S_Grow.v
theories/L_Grow.v
theories/P_Grow.v
theories/L_Cut.v
theories/P_Cut.v
theories/S_Cut.v
theories/L_CutText.v
theories/P_CutText.v
theories/L_Groups.v
theories/P_Groups.v
theories/S_RenameCall.v
theories/L_RenameCall.v
theories/P_RenameCall.v
theories/T_Abi.v
theories/T_Wat.v
theories/T_WitLex.v
theories/T_Binary.v
