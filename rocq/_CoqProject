-Q theories Verif
theories/Base.v
theories/CNum.v
theories/Path.v
theories/PathProofs.v
theories/Base64.v
theories/Base64Spec.v
theories/Base64Proofs.v
theories/P_Path.v
theories/P_Base64.v
theories/ParseBool.v
theories/P_ParseBool.v
theories/Blob.v
theories/P_Blob.v
theories/ParserInput.v
theories/ParserInputProofs.v
theories/P_ParserInput.v
theories/GuessFormat.v
theories/P_GuessFormat.v
theories/EmitterOutput.v
theories/P_EmitterOutput.v
theories/Float.v
theories/FloatText.v
theories/FloatTextProofs.v
theories/FloatProofs.v
theories/P_FloatText.v
theories/Value.v
theories/Emit.v
theories/JSONEmitter.v
theories/JSONEmitterProofs.v
theories/JsonText.v
theories/JsonTextProofs.v
theories/P_JSONEmit.v
theories/JSONParserC.v
theories/Convert.v
theories/Builder.v
theories/JSONDriver.v
theories/JSONCore.v
theories/JSONFlat.v
theories/Deserialize.v
theories/P_JSONInput.v
theories/JsonGrammar.v
theories/JSONAccept.v
theories/JSONRead.v
theories/JsonMeaning.v
theories/JSONSafe.v
theories/JSONSound.v
theories/P_JSONRead.v
theories/P_JSONUnicode.v
theories/JsonTree.v
theories/P_JSONRound.v
theories/P_Builder.v
theories/P_JSONSafe.v
theories/Numeric.v
theories/NumberSpec.v
theories/NumericProofs.v
theories/P_Compare.v
theories/P_Arith.v
theories/P_Convert.v
theories/P_Equal.v
theories/EventBuffer.v
theories/EventBufferProofs.v
theories/P_EventBuffer.v
theories/MsgPack.v
theories/P_MsgPack.v
theories/Uri.v
theories/P_Uri.v
theories/Regex.v
theories/GuessScalar.v
theories/P_GuessScalar.v
theories/Heap.v
theories/HeapProofs.v
theories/HeapSpec.v
theories/SharingProofs.v
theories/P_Sharing.v
theories/ValueOps.v
theories/HeapTree.v
theories/HeapErase.v
theories/HeapTreeFacts.v
theories/HeapAny.v
theories/P_Elements.v
theories/Pointer.v
theories/PointerWalk.v
theories/PointerOps.v
theories/PointerCmp.v
theories/PointerSem.v
theories/PatchSem.v
theories/PointerText.v
theories/P_Pointer.v
theories/P_Patch.v
theories/DiffSem.v
theories/DiffRun.v
theories/P_Diff.v
theories/Ext.v
theories/ExtSem.v
theories/ExtValue.v
theories/FlatSem.v
theories/FlatValue.v
theories/P_Ext.v
theories/Bundle.v
theories/BundleRead.v
theories/P_Bundle.v
theories/Payload.v
theories/PayloadProofs.v
theories/PayloadWrite.v
theories/PayloadTree.v
theories/P_Payload.v
theories/LoadAll.v
theories/LoadAllProofs.v
theories/YAMLSem.v
theories/P_LoadAll.v
theories/Schema.v
theories/SchemaSem.v
theories/SchemaMeaning.v
theories/SchemaProofs.v
theories/SchemaCheck.v
theories/SchemaFloat.v
theories/SchemaTerm.v
theories/SchemaFormat.v
theories/P_Schema.v
theories/Defaults.v
theories/DefaultsSem.v
theories/DefaultsProofs.v
theories/P_Defaults.v
theories/Life.v
theories/LifeProofs.v
theories/LifeSafe.v
theories/LifeRefs.v
theories/LifeGrow.v
theories/LifeSlots.v
theories/LifeOps.v
theories/LifeRun.v
theories/P_Life.v
theories/SchemaLoad.v
theories/SchemaLoadFrame.v
theories/SchemaNorm.v
theories/SchemaLoadTree.v
theories/SchemaLoadSem.v
theories/SchemaNormFacts.v
theories/SchemaCall.v
theories/P_SchemaLoad.v
theories/YAMLEmit.v
theories/P_YAML.v
theories/XML.v
theories/P_XML.v
theories/ArgParse.v
theories/P_ArgParse.v
theories/P_ArgAccept.v
theories/ArgSchema.v
theories/P_ArgSchema.v
theories/P_ArgRefuse.v
theories/EmitParams.v
theories/P_EmitParams.v
