-Q theories Verif
theories/Base.v
theories/Escape.v
theories/OutText.v
theories/Doc.v
theories/Config.v
theories/Output.v
theories/Infer.v
theories/Transform.v
theories/Ast.v
theories/Errors.v
theories/Build.v
theories/Convert.v
theories/Display.v
theories/Grammar.v
theories/SpecEscape.v
theories/SpecMarkup.v
theories/SpecHtml.v
theories/SpecTree.v
theories/SpecInfer.v
theories/SpecSource.v
theories/SpecTransform.v
theories/SpecBuild.v
theories/SpecErrors.v
theories/SpecWhole.v
theories/P_Base.v
theories/P_Escape.v
theories/P_EscapeDoc.v
theories/P_OutText.v
theories/P_Trim.v
theories/P_Read.v
theories/P_Output.v
theories/P_Layout.v
theories/P_Balance.v
theories/P_Infer.v
theories/P_InferProps.v
theories/P_Transform.v
theories/P_Meta.v
theories/P_Build.v
theories/P_BuildAll.v
theories/P_Selector.v
theories/P_Marks.v
theories/P_Convert.v
theories/P_Unknown.v
theories/P_Grammar.v
theories/P_Inside.v
theories/P_Match.v
theories/P_Errors.v
theories/SpecOrdinary.v
theories/P_Trees.v
theories/P_Source.v
theories/P_Ordinary.v
theories/SpecAttrs.v
theories/P_Attrs.v
theories/SpecText.v
theories/P_Text.v
theories/SpecShape.v
theories/P_Shape.v
theories/PropertiesText.v
theories/PropertiesOutput.v
theories/PropertiesInfer.v
theories/PropertiesTransform.v
theories/PropertiesConvert.v
theories/PropertiesBuild.v
theories/PropertiesError.v
theories/PropertiesWhole.v
theories/PropertiesSource.v
theories/PropertiesShape.v
theories/SpecFaults.v
theories/P_Faults.v
theories/P_Accept.v
theories/PropertiesFaults.v
theories/Wasm.v
theories/SpecWasm.v
theories/P_Wasm.v
theories/PropertiesWasm.v
theories/Path.v
theories/Reporter.v
theories/Cli.v
theories/SpecCli.v
theories/P_Path.v
theories/P_Cli.v
theories/P_Plan.v
theories/P_Run.v
theories/PropertiesCli.v
theories/Parser.v
theories/P_Lexer.v
theories/P_Parser.v
theories/PropertiesParser.v
theories/RepoTests.v
theories/Readme.v
theories/SpecWrite.v
theories/P_Forward.v
theories/P_WriteSel.v
theories/P_WriteText.v
theories/P_WriteItems.v
theories/P_Write.v
theories/SpecExpress.v
theories/P_Express.v
theories/PropertiesWrite.v
theories/SpecPlain.v
theories/P_Plain.v
theories/PropertiesPlain.v
theories/P_Parts.v
theories/SpecLineEnds.v
theories/P_LineEnds.v
theories/PropertiesParts.v
theories/Disk.v
theories/SpecDisk.v
theories/P_Disk.v
theories/PropertiesDisk.v
theories/P_Turns.v
theories/P_Ends.v
theories/PropertiesTurns.v
theories/Args.v
theories/SpecArgs.v
theories/P_Args.v
theories/P_Allowed.v
theories/P_ArgsOrder.v
theories/PropertiesArgs.v
theories/Json.v
theories/SpecJson.v
theories/P_Json.v
theories/Program.v
theories/P_Program.v
theories/PropertiesProgram.v
theories/SpecAdded.v
theories/P_Added.v
theories/PropertiesAdded.v
theories/SpecMessages.v
theories/P_Messages.v
theories/PropertiesMessages.v
theories/SpecStray.v
theories/P_Stray.v
theories/PropertiesStray.v
theories/SpecReindent.v
theories/P_Reindent.v
theories/PropertiesReindent.v
theories/Demo.v
theories/SpecDemo.v
theories/P_Demo.v
theories/PropertiesDemo.v
theories/Editor.v
theories/SpecEditor.v
theories/P_Editor.v
theories/PropertiesMarks.v
theories/SpecNamespace.v
theories/P_Namespace.v
theories/PropertiesNamespace.v
theories/SpecLayout.v
theories/P_Typeset.v
theories/PropertiesLayout.v
theories/SpecSize.v
theories/P_Size.v
theories/P_Size2.v
theories/P_Size3.v
theories/P_Size4.v
theories/PropertiesSize.v
theories/SpecPlaces.v
theories/P_Places.v
theories/P_Nest.v
theories/P_Order.v
theories/PropertiesPlaces.v
theories/PropertiesOrder.v
theories/P_Many.v
theories/P_Repeat.v
theories/PropertiesMany.v
theories/PropertiesOptions.v
theories/Url.v
theories/SpecUrl.v
theories/P_Url.v
theories/PropertiesUrl.v
theories/Frame.v
theories/PropertiesFrame.v
